{"id": "C01", "title": "Pareto result sets stay minimal and complete", "statement": "After any sequence of additions to an initially empty Pareto set (any dominance relation that is reflexive and transitive), no stored element dominates another stored element, every stored element was added, every element ever added is dominated by some stored element, add reports success exactly when no stored element dominates the new one, and a rejected add leaves the set unchanged.", "quantifier": "every element type with a preorder dominance, every finite history of additions", "why_tests_cant": "The add routine compacts in place and returns early in the middle of the compaction; whether that is safe depends on transitivity and on the invariant over the whole history, which no finite set of histories settles.", "anchors": ["include/nigiri/routing/pareto_set.h: pareto_set::add, is_dominated"]}
{"id": "C02", "title": "Journey dominance is a preorder per search direction", "statement": "Among journeys with start before destination (forward results), respectively strictly after (backward results), dominance is reflexive, transitive and means: no more transfers, no earlier departure, no later arrival. Across mixed or zero-length journeys in a backward result set transitivity fails (refuted with a witness).", "quantifier": "all journeys (all start/destination times and transfer counts)", "why_tests_cant": "Transitivity is a statement about all triples of journeys.", "anchors": ["include/nigiri/routing/journey.h: journey::dominates, departure_time, arrival_time"]}
{"id": "C03", "title": "Half-open interval algebra agrees with membership", "statement": "For non-empty intervals overlaps holds exactly when a common point exists; intersect contains exactly the common points; contains(interval) holds for non-empty arguments exactly when every point is contained; clamp returns a value in the closed range and is the identity on it; shifting moves membership. overlaps is also true for an empty interval strictly inside another one (refutation).", "quantifier": "all intervals and points over an ordered integer type", "why_tests_cant": "Quantifies over all pairs of intervals including empty and adjacent ones.", "anchors": ["include/nigiri/common/interval.h: contains, overlaps, intersect, clamp, operator<<, operator>>"]}
{"id": "C04", "title": "Compact event time encodes every non-negative 16-bit minute count losslessly", "statement": "Storing a minute count m with 0 <= m < 32*1440 (in particular every non-negative int16) as (days, minutes after midnight) and reading it back returns m; the minutes part is always below 1440; two stored values are equal exactly if the minute counts are equal. The type's own order is minutes-after-midnight first, hence not chronological (refuted with a witness), and coincides with chronological order for events of equal day count.", "quantifier": "all minute counts, all pairs of stored values", "why_tests_cant": "46080 x 46080 pairs of values; bit-field packing errors appear only at boundaries.", "anchors": ["include/nigiri/types.h: delta"]}
{"id": "C05", "title": "Stop and footpath words pack losslessly", "statement": "A stop built from a location index below 2^28 and four permission bits returns exactly these from its 32-bit word and distinct stops have distinct words; a footpath built from a target below 2^23-1 returns the target and min(duration,511) for every non-negative duration, and construction is rejected for every larger target; footpath order is (target, duration) lexicographic.", "quantifier": "all location indices, permission bits, durations", "why_tests_cant": "2^32 words, boundary-sensitive bit packing.", "anchors": ["include/nigiri/stop.h: stop", "include/nigiri/footpath.h: footpath"]}
{"id": "C06", "title": "Search-relative time and absolute time convert back and forth without loss", "statement": "For every base day and absolute minute time within [base-32768, base+32767] minutes converting to a 16-bit search offset and back is the identity, outside it saturates monotonically to the nearest bound; (day, minutes) pairs convert to the same offset as their absolute time; splitting an offset into (day, minutes) yields 0<=minutes<1440 and day*1440+minutes = base*1440+offset whenever that sum is non-negative.", "quantifier": "all base days, times and offsets", "why_tests_cant": "Saturation and C++ truncating division misbehave only at rare boundaries.", "anchors": ["include/nigiri/common/delta_t.h: clamp, unix_to_delta, tt_to_delta, delta_to_unix, split_day_mam", "include/nigiri/timetable.h: day_idx_mam, to_unixtime"]}
{"id": "C07", "title": "Circular minute distance is the true minimum over day shifts", "statement": "The distance reported between two minutes-after-midnight values equals the minimum of |a - b - 1440k| over all day shifts k and the reported day shift attains it.", "quantifier": "all pairs of values in [0,1440)", "why_tests_cant": "Two million pairs, three branches.", "anchors": ["src/common/mam_dist.cc: mam_dist", "include/nigiri/common/mam_dist.h"]}
{"id": "C08", "title": "Bucket queue is a correct priority queue", "statement": "For every sequence of push/pop operations whose keys are within range, each top/pop returns an element of minimum key among those pushed and not yet removed, nothing is lost or duplicated and size/emptiness are exact.", "quantifier": "all operation histories", "why_tests_cant": "The current-bucket hint is only correct as an invariant over the whole history.", "anchors": ["include/nigiri/common/dial.h: dial"]}
{"id": "C09", "title": "String interning is a bijection", "statement": "After any history of store operations: storing the same string twice returns the same index, different strings get different indices, reading an index returns the stored string, lookup finds exactly the stored strings, and earlier indices remain valid.", "quantifier": "all histories of stored strings", "why_tests_cant": "History property with hash lookup over indices.", "anchors": ["include/nigiri/string_store.h: string_store::store, find, get, try_get"]}
{"id": "C10", "title": "GTFS calendar rows yield exactly the right service days", "statement": "For every calendar row (weekday flags, inclusive first and last date) and every timetable period, the service's day set contains exactly the days of the period (of at most 512 days) that lie in the row's date range - extended to the feed end date if the row ends before it and extension is requested - and whose weekday flag is set.", "quantifier": "all weekday patterns, date ranges, timetable periods", "why_tests_cant": "Off-by-one on either end or weekday rotation depends on the alignment of three dates.", "anchors": ["src/loader/gtfs/services.cc: calendar_to_bitfield", "src/loader/gtfs/calendar.cc"]}
{"id": "C11", "title": "Calendar exceptions override weekly service, last entry wins", "statement": "After merging, a service runs on a day exactly if the last exception for that day is an addition, or there is no exception for that day and the weekly calendar contains it; exceptions outside the period are ignored; services that only have exceptions are built from them alone.", "quantifier": "all calendars and exception lists", "why_tests_cant": "Quantifies over arbitrary exception lists with repetitions and days outside the period.", "anchors": ["src/loader/gtfs/services.cc: add_exception, merge_traffic_days", "src/loader/gtfs/calendar_date.cc"]}
{"id": "C12", "title": "Stop sequence numbers survive compression", "statement": "For every strictly increasing list of stop_sequence numbers of a trip with at least two stops the decoded sequence equals the original; the encodings 0,1,2,.. / 1,2,3,.. / 10,20,30,.. are recognised and never confused with an explicit list. A single-stop trip is representable only with number 0, 1 or 10 (refutation).", "quantifier": "all sequences of stop sequence numbers and all trip lengths", "why_tests_cant": "Encoder classification and iterator decoding must agree for every list; a one-element explicit list collides with the compressed tags (refutation with witness).", "anchors": ["src/loader/gtfs/stop_seq_number_encoding.cc: encode_seq_numbers", "include/nigiri/loader/gtfs/stop_seq_number_encoding.h: stop_seq_number_range"]}
{"id": "C13", "title": "Time-dependent footpath lookup", "statement": "For time-sorted availability entries, a backward lookup returns the latest possible departure that arrives by the requested time and a forward lookup returns a walk that starts at the earliest moment at or after the request at which the footpath is available; both report the duration including waiting. The forward walk is not always the earliest arrival (refutation with witness).", "quantifier": "all sorted entry lists and request times", "why_tests_cant": "Quantifies over all entry lists; wrong neighbour or boundary handling shows only on special alignments.", "anchors": ["include/nigiri/td_footpath.h: get_td_duration"]}
{"id": "C14", "title": "Vehicles grouped into one route are ordered at every stop", "statement": "Whenever the GTFS loader inserts vehicles into routes, in every resulting route each stop column (arrival and departure) is sorted by minutes after midnight from one vehicle to the next, in every order of insertion, and the inserted vehicles are exactly those of the route.", "quantifier": "all insertion histories of vehicles into routes", "why_tests_cant": "An invariant over arbitrary insertion histories into a sorted structure.", "anchors": ["include/nigiri/loader/gtfs/local_to_utc.h", "include/nigiri/loader/get_index.h: get_index", "src/loader/gtfs/load_timetable.cc: add_expanded_trip"]}
{"id": "C15", "title": "No overtaking inside a route", "statement": "If all vehicles of a route agree on the day count at every event then departing no later implies arriving no later for all vehicles and operating days (FIFO). Without that agreement the property advertised in the documentation is false (witness: vehicles 22:50->+24h and 23:30->23:35 end up in one route).", "quantifier": "all vehicles of a route, all pairs of operating days, all pairs of stops", "why_tests_cant": "FIFO is a statement on all pairs of trips and days; the counterexample needs a trip longer than a day.", "anchors": ["include/nigiri/loader/get_index.h", "README.md"]}
{"id": "C16", "title": "Earliest vehicle selection returns the first catchable departure", "statement": "For a route whose stop column is sorted, looking up the earliest transport at a stop from a time t returns a running vehicle departing at or after t such that no other running vehicle of the route departs in between (symmetrically: latest arrival at or before t in backward search); it returns nothing only if no vehicle of the route departs within the look-ahead days or all are worse than the pruning bound.", "quantifier": "all routes, traffic day sets, stops, request times and pruning bounds, both directions", "why_tests_cant": "Searches over days x vehicles with wrap at midnight and multi-day offsets.", "anchors": ["include/nigiri/routing/get_earliest_transport.h: get_earliest_transport", "include/nigiri/routing/raptor/raptor.h: get_earliest_transport"]}
{"id": "C17", "title": "Round-based search returns only feasible connections", "statement": "Every label (arrival time at a stop after k rides) computed by the round-based search, and hence every reported connection, is realised by a sequence of at most k rides on running vehicles, each boarded where boarding is allowed, at or after the traveller is at the stop (including transfer time or a footpath), left where alighting is allowed, starting from one of the given starts not before its start time.", "quantifier": "all timetables, start sets, filters, number of rounds, both directions", "why_tests_cant": "Soundness must hold for every timetable and query.", "anchors": ["include/nigiri/routing/raptor/raptor.h: raptor::execute, loop_routes, update_route, update_transfers, update_footpaths, update_intermodal_footpaths, rounds"]}
{"id": "C18", "title": "Round-based search is optimal for every number of rides", "statement": "If routes are FIFO and the lower bounds are admissible, then for every k up to the transfer limit and every destination the label after k rounds is at least as good as the arrival of every feasible connection with at most k rides that stays within the search horizon.", "quantifier": "all timetables, start sets, number of rounds, both directions", "why_tests_cant": "Optimality compares against all possible connections.", "anchors": ["include/nigiri/routing/raptor/raptor.h", "include/nigiri/routing/get_earliest_transport.h"]}
{"id": "C19", "title": "Transfer limit is respected", "statement": "No reported connection has more transfers than the query's maximum, and each number of transfers appears at most once per start time and destination.", "quantifier": "all queries and timetables", "why_tests_cant": "Universal statement over runs of the search.", "anchors": ["include/nigiri/routing/raptor/raptor.h: execute end_k", "include/nigiri/routing/limits.h"]}
{"id": "C20", "title": "Vehicle filters are never violated", "statement": "A connection returned under a clasz filter, bike/car carriage, wheelchair or reservation restriction uses only rides whose every travelled section satisfies the restriction.", "quantifier": "all timetables, masks, per-section and per-route flags", "why_tests_cant": "Per-section filters are evaluated incrementally during the scan; correctness over all section patterns cannot be enumerated.", "anchors": ["include/nigiri/routing/raptor/raptor.h: update_route (section filters)", "include/nigiri/routing/clasz_mask.h"]}
{"id": "C21", "title": "Lower bound search computes exact bounded shortest distances", "statement": "The lower-bound search over a weighted graph from a set of destinations returns for every location the minimum over all paths of the summed edge weights plus destination offset if it is at most the maximum, and 'unreachable' otherwise.", "quantifier": "all graphs, destination sets, bounds", "why_tests_cant": "Shortest-path correctness for every graph.", "anchors": ["src/routing/dijkstra.cc: dijkstra", "include/nigiri/routing/dijkstra.h"]}
{"id": "C22", "title": "Lower bounds never exceed real travel times", "statement": "For every ride between two stops the lower bound graph contains an edge between their root stations that is no longer than the ride; hence the shortest distances computed on it never exceed the duration of any feasible connection.", "quantifier": "all timetables and connections", "why_tests_cant": "Needs every transport, section and path.", "anchors": ["include/nigiri/loader/build_lb_graph.h: build_lb_graph"]}
{"id": "C23", "title": "Local schedule to UTC conversion keeps every departure on its exact day and minute", "statement": "For each operating day of a trip in local time, the union of expanded UTC vehicles contains exactly one running vehicle whose absolute departure and arrival times equal noon-12h of that service day plus scheduled offset minus the UTC offset of that day, and nothing else.", "quantifier": "all service day sets, offsets (DST changes), trip times including those beyond 24h and before midnight UTC", "why_tests_cant": "DST transitions, negative days and multi-day trips interact.", "anchors": ["include/nigiri/loader/gtfs/local_to_utc.h: expand_local_to_utc, expand_frequencies", "src/loader/gtfs/noon_offsets.cc"]}
{"id": "C24", "title": "Frequency-based trips expand to exactly the advertised departures", "statement": "A frequency window [start,end) with headway h yields exactly the departures x = start + k*h with x + h <= end and each expanded vehicle keeps all travel times of the template.", "quantifier": "all windows, headways and templates", "why_tests_cant": "Arithmetic progression end conditions over all inputs.", "anchors": ["include/nigiri/loader/gtfs/local_to_utc.h: expand_frequencies", "src/loader/gtfs/trip.cc"]}
{"id": "C25", "title": "Block (through-running) expansion covers every trip-day exactly once", "statement": "For all trips of a block with arbitrary service days the loader produces vehicle chains such that for every trip and every service day exactly one chain containing the trip runs on that day, no chain runs on a day one of its trips does not run, and consecutive trips of a chain meet at the same stop.", "quantifier": "all blocks, service day sets and stop patterns", "why_tests_cant": "Day-set splitting over arbitrary sets, exponential number of patterns.", "anchors": ["src/loader/gtfs/trip.cc: block::rule_services"]}
{"id": "C26", "title": "Via stops are merged without losing required stay time", "statement": "Sanitising a query's via list terminates, keeps the order and the total required stay, and leaves no two adjacent vias that match the same place.", "quantifier": "all via lists and location equivalences", "why_tests_cant": "Fixpoint/merging over arbitrary lists.", "anchors": ["src/routing/query.cc: sanitize_via_stops, sanitize_query"]}
{"id": "C27", "title": "Flipping a query twice is the identity", "statement": "Reversing the search direction of a query twice returns the original query; one flip exchanges starts with destinations, their match modes and footpath offsets, and reverses the vias.", "quantifier": "all queries", "why_tests_cant": "Field-wise statement over all queries.", "anchors": ["include/nigiri/routing/query.h: query::flip_dir", "src/routing/query.cc"]}
{"id": "C28", "title": "Adjusted transfer times are never shorter than requested", "statement": "The adjusted transfer time is monotone in the base duration, at least the configured minimum and equals the base duration for default settings, as long as the result fits 8 bits. Beyond 255 minutes it is truncated to a shorter time, and equality of settings is wrong for non-default settings (refutations).", "quantifier": "all settings and durations", "why_tests_cant": "All combinations of factor, minimum and additional time.", "anchors": ["include/nigiri/routing/transfer_time_settings.h: adjusted_transfer_time, operator=="]}
{"id": "C29", "title": "Start generation covers every useful departure in the search interval", "statement": "For an interval query, the generated starts contain for every boardable departure of a running vehicle reachable by a start offset within the interval an entry whose time at start is the departure minus the offset, and contain nothing outside the interval (except the on-trip entry). Refuted where the code deviates: an interval extension can lose a start because of the duplicate check, an offset of exactly 511 minutes counts as unavailable, and real-time starts ignore unavailable time-dependent offsets.", "quantifier": "all timetables, start offsets, intervals", "why_tests_cant": "Coverage over all departures and days.", "anchors": ["src/routing/start_times.cc: get_starts, add_start_times_at_stop, add_starts_in_interval"]}
{"id": "C30", "title": "Search interval extension terminates and stays within limits", "statement": "Extending a search interval only enlarges it, in the enabled directions, within the timetable, the maximal search window and the user's limit; the first interval contains every requested time within these limits; the search terminates for every query, algorithm result and clock; journeys of an interval query start in the reported interval and respect the travel time limit. Refuted: the requested interval itself is always searched; fixed intervals always fit the 16 bit time range; slow direct connections are returned.", "quantifier": "all queries, timetables, result histories", "why_tests_cant": "Loop termination for all inputs.", "anchors": ["include/nigiri/routing/interval_estimate.h: interval_estimator", "include/nigiri/routing/search.h: search::execute"]}
{"id": "C31", "title": "Duplicate merging keeps the union of service", "statement": "Merging two duplicate vehicles keeps exactly the union of their days, each on one of them, and leaves all others alone; after any history of duplicate searches no vehicle gained a day and every vehicle-day of the input is still served by a vehicle connected to it by duplicates (same places, same first departure, less than a minute deviation per stop); trips keep their days if the days are nested. Refuted: trips keep their days for partially overlapping days or chains of three duplicates; boarding permissions are compared.", "quantifier": "all pairs of vehicles and day sets", "why_tests_cant": "Day-set algebra over all sets.", "anchors": ["src/loader/merge_duplicates.cc: merge_duplicates"]}
{"id": "C32", "title": "Route-level traffic day masks never hide a running vehicle", "statement": "After route traffic days are rebuilt, for every running vehicle of a route and each of its events the route is marked active on the calendar day of that event.", "quantifier": "all timetables", "why_tests_cant": "Universal over vehicles, days and multi-day events.", "anchors": ["src/loader/init_finish.cc", "src/timetable.cc: rebuild_route_traffic_days"]}
{"id": "C33", "title": "Real-time updates produce chronologically consistent vehicles", "statement": "After applying any trip update (any mix of delays, absolute times, missing entries, skipped stops, unmatched entries) to any vehicle, the vehicle's event times are non-decreasing along the trip.", "quantifier": "all trips, prior real-time states and trip update messages", "why_tests_cant": "Messages are arbitrary; the clean-up pass must restore the order for all of them.", "anchors": ["src/rt/gtfsrt_update.cc: update_run, update_event, update_delay"]}
{"id": "C34", "title": "Delays propagate to later stops", "statement": "For an update that only carries delays, an event without its own entry gets the scheduled time plus the delay of the closest preceding event with an entry, raised to the predicted time of the event before it; events before the first entry keep their previous times (subject to the monotonicity clean-up).", "quantifier": "all trips and delay updates", "why_tests_cant": "All positions and patterns of entries.", "anchors": ["src/rt/gtfsrt_update.cc: update_run"]}
{"id": "C35", "title": "Real-time changes affect exactly the addressed vehicle and day", "statement": "After any history of cancellations and real-time replacements, a scheduled vehicle is active on a day in the real-time view exactly if it is scheduled on that day in the static timetable and no operation of the history addressed that vehicle on that day; the static timetable is never modified.", "quantifier": "all static timetables and histories of operations", "why_tests_cant": "Copy-on-write of shared bit sets; only a history invariant excludes aliasing.", "anchors": ["src/rt/rt_timetable.cc: add_rt_transport, cancel_run", "include/nigiri/rt/rt_timetable.h: traffic_days, is_transport_active"]}
{"id": "C36", "title": "Real-time event times and lookups stay aligned", "statement": "After any history of adding real-time vehicles and updating event times, reading an event returns the last written (saturated) time and the static vehicle and its real-time twin resolve to each other.", "quantifier": "all histories", "why_tests_cant": "History property over parallel arrays.", "anchors": ["include/nigiri/rt/rt_timetable.h: update_time, event_time, unix_event_time, resolve_rt, resolve_static"]}
{"id": "C37", "title": "Trip-based search: reached segments answer exactly the best recorded entry", "statement": "After any history of updates, querying the reached structure for (route, vehicle, day, round) returns the minimum segment offset among all recorded entries of the same route with no later vehicle/day and no later round, or the last stop if none exists.", "quantifier": "all histories of updates and queries", "why_tests_cant": "Backed by a Pareto set that discards entries; exactness is an invariant.", "anchors": ["include/nigiri/routing/tb/reached.h: reached::update, query"]}
{"id": "C38", "title": "Trip-based search: transfer reduction table keeps the per-day minimum", "statement": "After any history of (time, day set) insertions for a location, for every day the table's minimum time equals the minimum of all inserted times valid on that day, and an insertion reports exactly the days on which it strictly improved.", "quantifier": "all histories and day sets", "why_tests_cant": "Day-set splitting with slot reuse; exactness for every day and history.", "anchors": ["src/routing/tb/preprocess.cc: reached_reduction::update"]}
{"id": "C39", "title": "Footpath components and transitive closure", "statement": "Within a component the computed footpath between two stations has the length of a shortest walking path in the input graph; stations in different components are never connected.", "quantifier": "all footpath graphs", "why_tests_cant": "Shortest path closure for all graphs.", "anchors": ["src/loader/build_footpaths.cc: find_components, process_component, connect_components"]}
{"id": "C40", "title": "Interpolated stop times are complete, bounded and monotone", "statement": "If a trip's given times are non-decreasing and first departure and last arrival are given, interpolation fills every gap, keeps given times, and yields non-decreasing times between the neighbouring given times; trips lacking first or last time are rejected.", "quantifier": "all trips with arbitrary gaps", "why_tests_cant": "All gap patterns.", "anchors": ["src/loader/gtfs/trip.cc: interpolate"]}
{"id": "C41", "title": "Stored stop times read back exactly", "statement": "After all routes have been written to the flat stop time arrays, reading arrival or departure of any vehicle at any stop of its route returns exactly the time the loader computed for it, and vehicles, routes and stop sequences refer to each other consistently.", "quantifier": "all lists of routes with any number of stops and vehicles (total below 2^32 stop times)", "why_tests_cant": "Index arithmetic over a transposed layout of unbounded size.", "anchors": ["include/nigiri/timetable.h: event_mam, event_times_at_stop, add_transport, finish_route", "src/loader/gtfs/load_timetable.cc: write stop times"]}
{"id": "C42", "title": "Section restrictions of through-running trips are kept per section", "statement": "For a vehicle chaining several trips, the flag (bikes, cars, reservation, wheelchair) of every section read from the stored route equals the flag of the trip that covers this section.", "quantifier": "all chains of trips with at least two stops, all flags and sections", "why_tests_cant": "Uniform flags are stored once per route, mixed ones per section; all combinations matter.", "anchors": ["src/loader/gtfs/load_timetable.cc: get_section flags", "src/timetable.cc: register_route"]}
{"id": "C43", "title": "Assistance times restrict wheelchair boarding on exactly the right days", "statement": "Splitting a vehicle by assistance availability keeps every vehicle-day exactly once with all times, and on each day wheelchair boarding/alighting at a stop is allowed exactly if it was allowed before and assistance is available at the local time of that event. Refuted for trips whose first departure falls on another UTC day than the service day.", "quantifier": "all availability functions, vehicles and days", "why_tests_cant": "Days are grouped by their availability vector.", "anchors": ["include/nigiri/loader/gtfs/local_to_utc.h: expand_assistance"]}
{"id": "C44", "title": "Vehicles built from trips fit their routes", "statement": "Every vehicle expanded from sane trips has two times per section of its stop sequence, in chronological order and in range; when two trips are joined, the shared stop keeps the alighting permission of the first and the boarding permission of the second trip.", "quantifier": "all trips, blocks, frequencies, service days and UTC offsets", "why_tests_cant": "Composition of several loader stages over unbounded inputs.", "anchors": ["include/nigiri/loader/gtfs/local_to_utc.h", "src/loader/gtfs/load_timetable.cc: add_expanded_trip"]}
{"id": "C45", "title": "Location matching", "statement": "For every match mode, the locations enumerated for a query location are exactly the specified ones (exact: itself; children: two levels below; equivalence: two levels below its root station and below every declared equivalent; intermodal: itself and its generated tracks); the matching predicate agrees with the enumeration, and the root lookup returns the topmost ancestor for hierarchies of up to 22 levels and terminates with the direct parent on parent cycles.", "quantifier": "all location hierarchies, equivalences, modes and pairs of locations", "why_tests_cant": "Arbitrary parent/child graphs, including malformed cyclic ones.", "anchors": ["include/nigiri/for_each_meta.h: for_each_meta, matches", "include/nigiri/timetable.h: get_root_idx"]}
{"id": "C46", "title": "Stored transfers of the trip based search", "statement": "Every transfer the pre-processing of the trip based search stores for leaving a vehicle at a stop is valid on at least one day, and on each of its days both vehicles run (the second one on the day shifted by the stored offset), leaving and boarding are allowed at the two stops, the stops are the same place or connected by a footpath, and the second vehicle departs no earlier than the arrival plus the transfer or walking time and at most a day after the arrival.", "quantifier": "all well-formed timetables, vehicles, stops, days and footpaths", "why_tests_cant": "The transfers depend on all pairs of vehicles, overlapping traffic days, trips over several midnights and the pruning history.", "anchors": ["src/routing/tb/preprocess.cc: get_route_neighborhood, preprocess_transport, preprocess", "include/nigiri/routing/tb/tb_data.h: transfer"]}
{"id": "C47", "title": "Feasible journeys of the trip based search", "statement": "Every journey reported by a trip based search on a state without leftovers of an earlier query is a connection of the timetable: rides on running vehicles between stops where boarding and leaving are allowed, transfers that respect transfer and walking times, at most as many rides as the journey says, starting at a start of the query no earlier than the journey's departure and arriving at the reported time; it has at most 13 transfers.", "quantifier": "all well-formed timetables, forward queries without filters, start groups and journeys", "why_tests_cant": "Soundness must hold for every pruning history, multi-day queue and set of start times.", "anchors": ["src/routing/tb/query_engine.cc: query_engine, execute, seg_dest, seg_prune, seg_transfers, add_start", "include/nigiri/routing/tb/queue.h: enqueue, initial_enqueue", "include/nigiri/routing/get_earliest_transport.h"]}
{"id": "C48", "title": "Reconstructed journeys are real itineraries", "statement": "Whenever the reconstruction of a reported journey succeeds, its legs form an itinerary of the query: exactly as many rides as reported, each on an existing vehicle on a day it runs between stops where boarding and leaving are allowed and all filters hold, with the vehicle's scheduled times on the legs; consecutive rides are joined by a transfer or footpath of the timetable that starts where and not before the previous leg ends and is over before the next departure; the first leg leaves a start of the query no earlier than the journey's start time and the last leg reaches the destination at the reported time or better. Shortening and moving footpaths afterwards keeps all this for queries that require no flags (with required flags it does not).", "quantifier": "all well-formed timetables, queries in both directions, start groups, journeys and penalty functions", "why_tests_cant": "Soundness must hold for every combination of labels, offsets, footpaths and vehicle days; tests compare a few literal itineraries.", "anchors": ["src/routing/raptor/reconstruct.cc: reconstruct_journey_with_vias, get_legs, check_fp, get_transport, get_route_transport, find_start_in_prev_round, find_start_footpath, find_dest_leg", "src/routing/raptor/optimize_footpaths.cc: optimize_footpaths, optimize_initial_departure, optimize_initial_start_footpath, optimize_last_arrival, optimize_final_egress_footpath, optimize_transfers", "include/nigiri/routing/journey.h: leg"]}
{"id": "C49", "title": "Every kept journey can be reconstructed", "statement": "Every journey that the search keeps in the Pareto set of a start time can be turned into an itinerary by the reconstruction that runs right after that start time: there is a destination whose label is the reported arrival and for every such destination the reconstruction succeeds and yields an itinerary of the query with the reported number of rides, start and arrival. (Otherwise the exception is swallowed and the journey is silently dropped.) This relies on all destination offsets being shorter than 511 minutes and on every start being explained by the query; without either it fails.", "quantifier": "all well-formed timetables with FIFO routes and valid lower bounds, queries in both directions, sequences of start groups and kept journeys", "why_tests_cant": "Completeness of the walk back through the labels depends on every label written by every round of every earlier start time; tests only see the journeys that survived.", "anchors": ["src/routing/raptor/reconstruct.cc: reconstruct_journey_with_vias", "include/nigiri/routing/search.h: search_interval, execute", "src/routing/start_times.cc: get_starts, collect_destinations"]}
{"id": "C50", "title": "A complete interval query returns real itineraries and misses no connection", "statement": "A query for a fixed departure (arrival) interval - start labels, search for every start time, reconstruction, result filter together - terminates and returns journeys that start inside the interval, respect the limits on travel time and transfers and each have an itinerary that can be ridden; no returned journey dominates another. Conversely, for every connection of the timetable that leaves the start of the query inside the interval within these limits, a returned journey leaves no earlier, arrives no later and has no more transfers - unless a connection that is at least as good leaves right after the interval. Needed: no start is a destination, no start is further than five days from every destination (see C18), destination offsets are shorter than 511 minutes (see C49).", "quantifier": "all well-formed timetables with FIFO routes, both search directions, all start and destination match modes, offsets, intervals of up to two weeks, travel time limits of up to five days, transfer limits and iteration orders of the hash map of start offsets", "why_tests_cant": "The property relates the output to all connections that exist in a timetable; every component could be tested in isolation while their composition (relative times, 16 bit clamps, order of start times, reuse of labels, flags of results) loses journeys.", "anchors": ["include/nigiri/routing/search.h: execute, search_interval, add_start_labels", "include/nigiri/routing/raptor/raptor.h: execute, add_start, next_start_time, reconstruct", "src/routing/start_times.cc: get_starts", "src/routing/raptor/reconstruct.cc: reconstruct_journey_with_vias"]}
{"id": "C51", "title": "The timetable built by the loader offers exactly the vehicles of the input, and queries on it miss no connection", "statement": "Finalising well-formed input (vehicles with stop sequences, times and service days; links between stops) succeeds. Every ride the search can use on the finished timetable is a ride on an input vehicle, on one of its service days, at its times, within its boarding permissions and section restrictions - also when duplicates are removed; if duplicates are not removed, every ride on an input vehicle can be used. The route index of a stop lists exactly the routes that stop there. If no vehicle overtakes another one with the same stop sequence (or they reach each stop on the same day of the run), the finished timetable satisfies everything the search relies on, so interval queries on it miss no connection. Vehicles crossing midnight that overtake each other break this.", "quantifier": "all lists of input vehicles (any number, stops, times up to 22 days, service days), all link graphs, all loader options, all queries", "why_tests_cant": "It relates every ride of an arbitrary data set to the encoded timetable through grouping, transposed time arrays, shared bit fields, duplicate removal and route activity; and the search's correctness depends on invariants that loaders establish for every data set.", "anchors": ["src/loader/gtfs/load_timetable.cc: load_timetable", "src/loader/get_index.h: get_index", "src/loader/init_finish.cc: finalize", "src/loader/build_footpaths.cc: build_footpaths", "src/loader/merge_duplicates.cc", "src/timetable.cc: register_bitfield, add_transport"]}
{"id": "C52", "title": "The search uses real-time data: only what is possible now, and nothing possible is missed", "statement": "After any history of trip updates, added trips and cancellations, the rides open to the search are exactly: rides on scheduled vehicles on days no message was about, and rides on real-time vehicles between stops where boarding and leaving are (still) allowed, at the recorded times. Every reported journey is a connection made of such rides, transfers and footpaths, and whenever such a connection exists within the horizon and the transfer limit a journey is reported that is at least as good - provided the lower bounds include the real-time vehicles (update_lbs) and the query uses the default profile. Without update_lbs a single stop the bounds call unreachable hides a vehicle; with another profile bounds can be too high; a vehicle that was updated first and cancelled later is still offered.", "quantifier": "all static timetables, all message histories, all queries in both directions with the default profile", "why_tests_cant": "It relates the search result to every message history; the search reads days, stops and times from tables that messages modified in place, and lower bounds computed from them.", "anchors": ["include/nigiri/routing/raptor/raptor.h: update_route, update_rt_transport, get_earliest_transport, rt_time_at_stop, is_transport_active", "src/rt/rt_timetable.cc: add_rt_transport, update_lbs, cancel_run", "src/rt/gtfsrt_update.cc: gtfsrt_update_msg, update_run", "src/routing/dijkstra.cc: dijkstra"]}
{"id": "C53", "title": "One-to-all: the reported travel times are exactly the best possible ones", "statement": "The one-to-all search reports for every location and number of rides a travel time that a traveller can really achieve with at most that many rides (transfer time at the location included), within the transfer limit. Whatever can be reached within the maximal travel time, the transfer limit and five days is reported, no later and with no more rides; within the maximal travel time a larger number of rides is reported only if it is strictly faster; and the 'fastest offset' of a location reachable within the maximal travel time is optimal in time and, for that time, in the number of rides. Beyond the maximal travel time these guarantees (and the comment that slower journeys are not found) fail.", "quantifier": "all well-formed timetables with FIFO routes (with real-time vehicles), both directions, all start stations, match modes, offsets, filters, travel time and transfer limits", "why_tests_cant": "It quantifies over all connections to all locations of a timetable; the result is read out of the labels the search leaves behind, which are also written for rejected improvements.", "anchors": ["src/routing/one_to_all.cc: one_to_all, run_raptor, make_base, get_fastest_one_to_all_offsets, for_each_one_to_all_round_time", "include/nigiri/routing/raptor/raptor.h: execute, update_transfers, update_footpaths, update_time_at_dest"]}
{"id": "C54", "title": "The fastest direct connection is the shortest walk from the starts to the destinations", "statement": "Unless the query prescribes a value, the computed duration of the fastest direct connection is the (scaled) length of a shortest direct connection: start offset, footpaths with adjusted transfer times through destination stops, destination offset; 'unreachable' is returned exactly if none is below the limit, whatever order the start stops are enumerated in. With the default factor the value is exact and with a factor of at most one a journey dropped for being slower is never faster than an existing direct connection; with transitively closed footpaths one footpath suffices and forward and backward queries agree if stops are matched exactly. The destination's match mode is ignored, and a start offset beyond the limit is an out-of-range write.", "quantifier": "all footpath graphs, starts, destinations, match modes, transfer settings, factors, limits and enumeration orders", "why_tests_cant": "Shortest-path optimality over all graphs and all walks; the result silently removes journeys.", "anchors": ["src/routing/get_fastest_direct.cc: get_fastest_direct", "include/nigiri/routing/get_fastest_direct.h: kUnreachableDirect", "include/nigiri/common/dial.h: dial"]}
{"id": "C55", "title": "Queries starting inside a train offer every later stop at the right time", "statement": "A query generated for a traveller inside a running transport starts at the transport's arrival at the given stop; besides the starts it had, it gets exactly one start per remaining stop, in order of travel, and start time plus offset is the arrival there plus the transfer time. It fails exactly for the first stop and for stops the transport does not have. Whether passengers may alight at a stop is not looked at.", "quantifier": "all timetables, transports, days and stop indices", "why_tests_cant": "It ranges over every transport and every stop of it; the offsets are relative to a computed start time and narrowed to 16 bits.", "anchors": ["src/routing/ontrip_train.cc: generate_ontrip_train_query", "include/nigiri/timetable.h: event_time"]}
{"id": "C56", "title": "Journeys of a query with via stops visit all vias in order", "statement": "Every journey the search reports for a query with via stops can be travelled: it consists of rides that satisfy the filters, transfers, footpaths and additional stays, starts at one of the query's starts no earlier than reported, reaches a destination no later than reported with no more rides than reported, and visits all vias in the given order, each on an occasion of its own - by starting there, by a vehicle stopping there (only vias without minimal stay) or by staying there for the minimal stay on top of the transfer time.", "quantifier": "all well-formed timetables, both search directions, all lists of vias (any number, any sets of equivalent stops, any stays), all starts, destinations (stations or offsets), filters and transfer limits", "why_tests_cant": "It quantifies over all timetables and via lists; the search merges vehicles that crossed vias at different stops into the same label, and one wrongly merged state reports a journey that skips a via only for particular stop sequences.", "anchors": ["include/nigiri/routing/raptor/raptor.h: update_route, update_transfers, update_footpaths, update_intermodal_footpaths, add_start, reconstruct", "include/nigiri/routing/query.h: via_stop", "include/nigiri/routing/search.h: is_via_"]}
{"id": "C57", "title": "The search with via stops is optimal", "statement": "For every number of rides up to the transfer limit: if the query's starts admit a connection that visits all vias in order (each via as soon as possible: by a vehicle stopping there if no minimal stay is required, otherwise at the first change, walk or arrival at one of its stops, plus the minimal stay) and reaches a destination within the search horizon, then the search reports a journey that departs no earlier, arrives no later and has no more transfers. Starts may be destinations (round trips). Two limits of the claim are exhibited: a route that calls twice at the same stay-less via can lose the better vehicle on an arrival tie, and a traveller who postpones a stay to a later stop of the same via can be faster than every reported journey.", "quantifier": "all well-formed non-overtaking timetables, both search directions, all lists of vias, all starts, destinations, filters, transfer limits and horizons", "why_tests_cant": "It is a statement about all connections that the search did not find, over all timetables and via lists; per-route scans carry a triangular table of vehicles whose entries replace each other, and a lost entry only shows for particular stop sequences and schedules.", "anchors": ["include/nigiri/routing/raptor/raptor.h: update_route, update_transfers, update_footpaths, update_intermodal_footpaths, add_start, execute", "include/nigiri/routing/query.h: via_stop"]}
{"id": "C58", "title": "A backward search sees exactly the trips of the forward search", "statement": "Over the same timetable, filters and transfer settings, every door-to-door trip that leaves at T, uses K vehicles and arrives at a is, seen from the other end, a trip of the opposite search that starts at a, uses K vehicles and gets back to T or to a later departure; and conversely. Consequently, whatever journey the search reports from T, the opposite search started at the reported arrival reports a journey with no more transfers that departs no earlier than T.", "quantifier": "all well-formed non-overtaking timetables, both directions, all starts and destinations (stations or offsets), filters, transfer settings, transfer limits and start times", "why_tests_cant": "It relates two different instantiations of the search (other array directions, other boarding rules, other footpath lists) on every timetable; an asymmetry only shows for particular combinations of transfers and footpaths.", "anchors": ["include/nigiri/routing/raptor/raptor.h: execute, update_route, update_transfers, update_footpaths, update_intermodal_footpaths", "src/routing/raptor/pong.cc: pong", "include/nigiri/routing/query.h: query, flip_dir"]}
{"id": "C59", "title": "The forward-backward search returns exactly the trips that cannot be improved", "statement": "If journeys can be reconstructed, the forward-backward (ping-pong) search never fails ('no pong', no progress, endless loop) and every journey it returns is a door-to-door trip with exactly the reported departure, arrival and number of transfers which no other trip improves (leaving no earlier, arriving no later, no more vehicles); it departs in the returned interval, and in the requested one unless extension is allowed, respects the travel time and transfer limits and beats the direct connection; no journey is returned twice. Conversely every such trip departing in the returned interval is returned if it lies in the view of the search; for an interval of at most a day and travel times of at most four days the answer is exactly the set of unimprovable trips of the interval. Without a timeout the returned interval covers the requested one unless the timetable ends or nothing departs within the look-ahead. Refuted without its conditions: a trip behind a gap of more than a day can be lost, and a footpath that ends after the look-ahead can make the search throw.", "quantifier": "all well-formed non-overtaking timetables, both directions, all queries of that kind (intervals, offsets, filters, limits, minimal connection counts, timeouts), any number of iterations", "why_tests_cant": "It is about the whole answer set of an iterated pair of searches that share pruning bounds; a wrongly pruned label or a skipped start time only loses a journey for particular schedules, and 'nothing better exists' quantifies over all trips.", "anchors": ["src/routing/raptor/pong.cc: pong", "include/nigiri/routing/raptor/pong.h: kMinLookAhead", "include/nigiri/routing/raptor/raptor.h: execute, within_bounds, set_bounds, fill_bounds, update_transfers, update_footpaths", "include/nigiri/routing/pareto_set.h: add", "include/nigiri/routing/journey.h: dominates"]}
{"id": "C60", "title": "Direct journeys: valid, sorted, unique and complete per vehicle", "statement": "The stream of direct journeys contains only journeys made of one ride that satisfies all filters, preceded by the way from one of the query's start locations to the boarding stop and followed by the way to one of its destinations, both without waiting, departing no earlier (backward: arriving no later) than the query time. It is sorted by arrival (backward: by descending departure) if vehicles of a route do not overtake, and no vehicle of a day appears twice for the same stops. Every vehicle of the searched days which can be boarded and left at exactly one stop is in it with a way at least as short as every other way; with several such stops the pair tried is an admissible one. Three limits are exhibited: later boarding stops, later sections and exact matching with several locations.", "quantifier": "all well-formed timetables with real-time transports, all queries (offsets, stations, exact, equivalent, children; footpaths on or off), filters, both directions, all query times and day ranges, all orders the priority queue may choose among equals", "why_tests_cant": "It is about all vehicles and all ways to and from their stops, including those not returned, and about a lazily merged stream of unbounded length.", "anchors": ["src/routing/direct.cc: get_direct_journeys, route_gen, rt_gen, for_each_pair, lookup_offset, lookup_footpath, collect_locations, sections_violate_constraints", "include/nigiri/routing/direct.h: get_direct_journeys"]}
{"id": "C61", "title": "Slow direct journeys complete the answer", "statement": "Adding slow direct journeys takes nothing away and adds only valid direct journeys without transfers that depart (backward: arrive) in the interval; if no journey from within the interval is overtaken by one from behind it, every direct journey of the interval whose travel time is within the factor of the fastest one is added. Refuted in three cases: overtaking, the erasure by the range search, backward queries.", "quantifier": "all well-formed timetables, queries, intervals, factors and result sets", "why_tests_cant": "The set added depends on all vehicles of the interval and their order in a merged stream.", "anchors": ["src/routing/direct.cc: enrich_with_slow_direct", "include/nigiri/routing/search.h: execute", "src/routing/raptor/pong.cc: pong"]}
{"id": "C62", "title": "Alternatives to a ride fit into the journey", "statement": "Asked for up to n alternatives to one ride of a journey, the answer contains at most n, and none if the leg is not a ride. Every alternative is one valid ride different from the original, with the ways around it: if there is a ride before, it is reached by one transfer begun after that ride's arrival; if there is a ride after, it leads to it by one transfer finished before its departure; otherwise it connects to the query's start or destination. Replacing an interior ride by any of its alternatives gives a valid chain of rides again. If fewer than n are returned for an interior ride, every other vehicle that can be boarded and left at exactly one stop each and meets both rides is among them. Refuted: two additional services count as one vehicle, and the journeys of backward queries get alternatives in the opposite direction.", "quantifier": "all well-formed timetables with real-time transports, all journeys and positions in them, all queries (offsets, stations, exact, equivalent, children), numbers of alternatives, and orders the priority queue may choose among equals; no vehicle flags required", "why_tests_cant": "It quantifies over all vehicles of the timetable that could replace the ride and all ways between their stops and the neighbouring rides.", "anchors": ["src/routing/leg_alternatives.cc: get_leg_alternatives, make_alternative_query", "src/routing/direct.cc: get_direct_journeys", "src/routing/raptor/optimize_footpaths.cc: optimize_footpaths", "include/nigiri/rt/run.h: run"]}
{"id": "C63", "title": "Replacing interior rides by earlier alternatives keeps the journey valid", "statement": "The forward-backward search replaces interior rides of its journeys by their earliest alternative. This never fails, and the result is a valid itinerary of the same query with the same number of legs and rides, the same departure and the same arrival. Refuted: the 'earliest' alternative is always at least as early as the ride it replaces.", "quantifier": "all well-formed timetables with real-time transports, all valid itineraries of any number of rides, both directions, all queries", "why_tests_cant": "The replacement is applied to every window of five legs in turn, each on the result of the previous one; it must hold for all itineraries and all orders of equal alternatives.", "anchors": ["src/routing/raptor/pong.cc: get_earliest_alternative, pong", "src/routing/leg_alternatives.cc: make_alternative_query", "src/routing/direct.cc: get_direct_journeys"]}
{"id": "C64", "title": "Stay-seated transfers: the joined transports are exactly the ones the rules describe", "statement": "Resolving stay-seated transfers ends; every transport handed to the timetable is a chain of trips, each following the previous one by a rule, on days on which all of them run, and - if the rules have no cycle and fit on one calendar - every trip is on a transport on each day it runs, every pair of trips that meets within two hours is available without leaving the vehicle on every day both run, consecutive trips do meet, times never go back, and no chain is built twice for a day; whatever the iteration order of the hash maps. Refuted without these hypotheses: cyclic rules hang or lose trips, several runs of a trip on one day (frequencies) lose all but one, a transport can go back in time, boarding at the junction is lost when the first trip's last stop forbids boarding, and NeTEx adds the last journey of a chain twice.", "quantifier": "all sets of trips with any rules (forks and joins), all traffic day bitsets, all UTC day changes, all hash map iteration orders", "why_tests_cant": "The components are found by a search over hash maps with shrinking traffic days, repeated until no day is left; that nothing is lost or doubled depends on the whole graph, all days and the iteration order.", "anchors": ["src/loader/gtfs/seated.cc: build_seated_trips", "include/nigiri/loader/gtfs/seated.h: expand_seated_trips, expanded_seated", "src/loader/netex/load_timetable.cc: load_timetable (journey meetings)", "src/loader/gtfs/load_timetable.cc: load_timetable"]}
{"id": "C65", "title": "Lookup by trip descriptor finds exactly the runs of the trip on the day it asks for", "statement": "Looking up a trip id with a start date and possibly a start time hands out exactly the runs of the trips with that id on the service day meant (the date alone names the service day; date and time name the moment of the first departure, also when written as 01:30 of the next day or 25:30): each once, with the times of its whole vehicle and the stop range of the trip, for all frequencies, offset changes, through-running chains, assistance hours and orders in which vehicles were written. The trip start reported for a stop of a run finds that run again. Refuted: the day-based lookup for zones west of Greenwich, a date-only lookup of trips after midnight in a stay-seated transport, and the first-match rule with several trips of one id.", "quantifier": "all data sets, UTC offset histories, calendars, trip ids, dates and start times (also beyond 24:00), all stops of a run", "why_tests_cant": "The UTC variant of a trip (day shift and offset packed in 16 bits) is chosen per service day; that inverting it is right on every day needs all offsets, calendars and splits of a chain.", "anchors": ["include/nigiri/rt/gtfsrt_resolve_run.h: resolve_trip, resolve_static_trip_id, resolve_static", "src/rt/gtfsrt_resolve_run.cc: gtfsrt_resolve_run", "src/lookup/get_transport.cc: get_ref_transport", "src/rt/frun.cc: run_stop::get_trip_start", "src/loader/gtfs/load_timetable.cc: load_timetable"]}
{"id": "C66", "title": "A vehicle position moves exactly the events it has to, and never makes a vehicle run back in time", "statement": "After any history of trip updates, cancellations, added trips and vehicle positions, no real-time vehicle runs back in time. A position near a stop of a trip puts the vehicle there at the time of the position: all its events from that arrival on are the schedule moved by the observed delay, earlier events keep their time unless they would be later than what follows them - then just those are moved by the same delay - and no other vehicle changes. A position that is not near a stop changes no time; the same position twice is the same as once. Refuted: a vehicle that visits a stop twice is taken to be at the first visit.", "quantifier": "all timetables with forward schedules, all histories of feed entities, all positions (near any set of locations) and times", "why_tests_cant": "The backward fix-up stops at the first event that fits; that this leaves all times in order depends on every earlier message to the vehicle.", "anchors": ["src/rt/gtfsrt_update.cc: handle_vehicle_position, update_delay, gtfsrt_update_msg", "include/nigiri/rt/rt_timetable.h: rt_timetable::update_time, rt_timetable::unix_event_time", "src/rt/rt_timetable.cc: rt_timetable::add_rt_transport"]}
{"id": "C67", "title": "The day sets of an HRD service are read and split without inventing or doubling a day", "statement": "A hexadecimal bit field gives exactly the days between its first and its last pair of adjacent ones and is rejected without them. A service is split into pieces that are connected runs of sections, each of which runs on all days of its piece, and no day is in two pieces. When the days that begin at a section all end at the same one, nothing is thrown, each piece covers exactly the sections its days run on, and a day that begins at section k is loaded if and only if some day begins at every section up to k. Refuted: that every day is loaded (a section without a day of its own ends the expansion; days that end earlier are dropped; a gap raises an exception after part of the service has been loaded).", "quantifier": "all strings with up to 512 bits after the start marker; all numbers of sections and all day sets", "why_tests_cant": "The split removes days while it walks over the sections; what is left at a section depends on all earlier ones.", "anchors": ["src/loader/hrd/stamm/bitfield.cc: hex_str_to_bitset", "include/nigiri/loader/hrd/service/expand_traffic_days.h: expand_traffic_days"]}
{"id": "C68", "title": "An HRD service departs at the instants at which the station clocks show its times", "statement": "A local time is accepted exactly when the clocks of its zone show it at some instant and it is not the moment they are set forward, and becomes the first such instant. The vehicles of a service, for every piece and every repetition, run exactly on its service days that meet the selection and whose times all exist and do not decrease, each service day once, with every departure and arrival at its instant; different days never coincide; the platform of each stop is the one for the train number and local calendar day of its departure (arrival at the end) if the piece starts at the first stop or there is one train number. Refuted: a departure at 03:00 on the day the clocks go forward is dropped; pieces that start later take the platforms of wrong sections.", "quantifier": "all zones with forward seasons, all services, pieces, repetitions, selections, day sets", "why_tests_cant": "Offsets change within and between days, days are shifted to the UTC day of the first departure and grouped in a hash map; that no service day is lost or doubled is a statement about all of them.", "anchors": ["include/nigiri/loader/hrd/stamm/timezone.h: local_mam_to_utc_mam", "include/nigiri/loader/hrd/service/expand_local_to_utc.h: build_utc_time_seq, to_utc, build_stop_seq", "include/nigiri/loader/hrd/service/expand_repetitions.h: expand_repetitions", "include/nigiri/loader/hrd/service/ref_service.h: ref_service"]}
{"id": "C69", "title": "Leg rules of fares: joined legs and exactly the applicable rules of highest priority", "statement": "The effective legs of a fare computation are, concatenated, the transit legs of the journey; legs follow each other in one effective leg only by a leg join rule of their feed for their networks and transfer stops, and never is a boundary between effective legs one that could have been joined. The rules reported for an effective leg are exactly the feed's leg rules that apply to it (network, areas of boarding and alighting stop or of their stations, timeframe groups, area sets; an empty field means anything, or, in feeds without priorities, anything no rule names) and that no applicable rule beats in priority, sorted with default riders and cheapest first. Refuted: with overlapping timeframe groups only the first is considered; a rule is reported once per area of the stop.", "quantifier": "all feeds (rules, join rules, areas, timeframes, sets), all journeys", "why_tests_cant": "The rules go through a hash table of five optional fields, probed with up to 32 keys per pair of areas; that no rule is missed or wrongly found is a statement about all tables.", "anchors": ["src/fares.cc: join_legs, match_leg_rule, match_timeframe", "src/loader/gtfs/fares.cc: parse_leg_rules"]}
{"id": "C70", "title": "Tickets of a journey: transfer rules cover its legs in order", "statement": "get_fares ends for all feeds without a stored transfer count of 0. Every ticket covers consecutive legs of one feed; a ticket without a rule is a single leg that no rule connects to the next one; a ticket with a rule has the first rule that fits its first two legs, fits all consecutive legs with the duration measured from the first leg, respects the number of transfers and could not go on. The tickets go through the legs in order and leave none out; a leg is on two tickets only as the last of a rule ticket and the first of the next. Refuted: every leg is billed once (A, B, C with a rule for A to B bills B twice); a transfer_count of 256 hangs.", "quantifier": "all lists of transfer rules, all journeys and leg rules", "why_tests_cant": "Two nested loops move two iterators, with a step back after each ticket; coverage, order and termination concern all rule sets.", "anchors": ["src/fares.cc: join_transfers, matches, get_fares", "src/loader/gtfs/fares.cc: parse_fare_transfer_rules"]}
{"id": "C71", "title": "Service alerts: each place gets the alerts that name it, and alerts change no vehicle", "statement": "After any history of alerts, the alerts returned for a trip, route, direction, agency and place are exactly those with an informed entity that fits: what an entity names is the first of trip, route (with direction), agency (with route type), route type that it has, or its stop; an entity without a stop fits the whole trip (and every stop if asked for loosely), one with a stop fits the stop, its children and grandchildren; the periods and texts found under a returned index are those of that alert. In any history of trip updates, cancellations and alerts, an alert changes the times, stops and cancellation of no existing real-time vehicle; vehicles it adds for trips without one run as scheduled. Refuted: alerts with only a route type and stop alerts two levels above the place are never returned; an alert about a cancelled trip reinstates it.", "quantifier": "all alerts, entities, histories of feed entities, queries, station hierarchies", "why_tests_cant": "Lists per trip, route, agency and stop share an index into a dozen parallel columns that only some entities advance; that index and column stay aligned concerns all histories, and the matching concerns all hierarchies.", "anchors": ["src/rt/gtfsrt_alert.cc: handle_alert", "include/nigiri/rt/service_alert.h: alerts::get_alerts", "src/rt/rt_timetable.cc: add_rt_transport"]}
{"id": "C72", "title": "VDV/SIRI updates: predicted times, cancelled stops, and vehicles that run forward in time", "statement": "A VDV or SIRI message for stops [from, to) of a scheduled vehicle, after any history of trip updates, alerts and other such messages: each stop is matched to the first message stop behind those already used whose location is equivalent and whose planned arrival or departure is within 15 minutes; matched events take the predicted time, every other event of the run takes its scheduled time plus the delay last reported before it, events before the first report stay; then every time is lowered to the earliest of those behind it. Boarding and alighting at matched stops are as the message says; the first stop without boarding and the last without alighting drop out; the vehicle is cancelled exactly if fewer than two stops are left. No other vehicle changes. After any history, every vehicle that is not cancelled runs forward in time. Refuted: a cancellation cancels a vehicle that already has real-time data; a stop where the message allows alighting keeps it.", "quantifier": "all timetables, histories of trip updates, alerts and VDV messages, runs, message stops, equivalence relations", "why_tests_cant": "The matching, the propagated delay and the two passes over the times interact with whatever earlier messages have left in the vehicle; tests replay a handful of recorded messages.", "anchors": ["src/rt/vdv_aus.cc: update_run, monotonize, handle_first_last_cancelation, process_vdv_run", "include/nigiri/rt/rt_timetable.h: update_time", "src/rt/rt_timetable.cc: add_rt_transport, cancel_run"]}
{"id": "C73", "title": "The vehicles a VDV/SIRI run without resolvable id is matched to", "statement": "A message run whose id does not resolve is matched to exactly the vehicles that score more than 97.5 % of the best score, each once, provided the best score is more than 50 % (complete message) or 70 % (incomplete one) of 230 points per message stop. The score of a vehicle is the sum, over the message stops, of its best fit: an equivalent place where the vehicle, on a day it runs, has its planned event (departure at its first stop, arrival at its last, in between the departure if the message gives one and else the arrival) at most 15 minutes apart, also across midnight, worth 230 less the square of the difference in minutes. The run begins at a stop where the first message stop that fits the vehicle fits it, later message stops count only from there on, and it extends to the last stop of the vehicle. A message all of whose stops fit a vehicle to the minute, the first one only at its first stop, is matched to the whole vehicle.", "quantifier": "all timetables, equivalence relations, message runs (any stops, missing times, unknown places)", "why_tests_cant": "Which vehicles compete, over midnight and with equivalent stations, depends on the whole timetable; recorded messages exercise single matches.", "anchors": ["src/rt/vdv_aus.cc: match_run, vdv_stop::get_event, candidate", "include/nigiri/common/mam_dist.h: mam_dist", "include/nigiri/timetable.h: day_idx_mam, event_times_at_stop"]}
{"id": "C74", "title": "Stops and transfers of a GTFS feed become stations, footpaths, equivalences and change times", "statement": "For every stops.txt and transfers.txt: the stops are the ids of the rows (other than entrances and generic nodes) and their parents; the parent of a stop is the last one its rows give, its children are all stops that ever named it. Handed on for preprocessing is a footpath from a to b exactly if transfers.txt has a row from a to b or from b to a (different stops, neither type 3 nor 4), or one of them is near the other: connected by parents and children with the stop, its namesakes or neighbours and within 500 m (2 km for own parent and children), or a child of such a stop, and at most 511 minutes to walk. The first row of the own direction gives the time, else the first row of the other direction, else the walk. Outgoing and incoming lists mirror each other, have one entry per target, and footpaths exist in both directions, whatever the order in which stops are visited. A stop is equivalent exactly to the stops near it. The change time of a stop is the least of its rows, stay-seated pairs are exactly the type 4 rows with both trips. Refuted: a forbidden transfer (type 3) has no footpath; equivalence is symmetric.", "quantifier": "all stops.txt and transfers.txt contents (repeated ids, missing parents, any cycles), geometries, iteration orders of the hash map", "why_tests_cant": "The result mixes three sources of footpaths that overwrite each other in hash order, and a closure over station hierarchies; feeds in tests have a few stops.", "anchors": ["src/loader/gtfs/stop.cc: read_stops, read_transfers, stop::get_metas, stop::compute_close_stations", "include/nigiri/footpath.h: footpath"]}
{"id": "C75", "title": "Time dependent first and last miles of a journey", "statement": "For every journey whose first or last leg (of at least two) is an offset with time dependent variants: all other legs, the departure of the first and the arrival of the last leg, the stops and the mode are unchanged. The first leg gets the duration of the earliest walk that can be started at or after its departure (unchanged if none within five days); the leg that is shown is possible exactly if the offset is available at its departure. The last leg gets the duration of the latest walk that ends by its arrival and departs no earlier than that walk; it is possible if that walk ends exactly then. If the legs were connected and the earliest walk reaches the second leg in time, respectively some walk starts after the previous leg and ends by the arrival, the legs stay connected. Refuted: the leg shown is always possible (waiting at the start is dropped; a faster walk is moved into a closed period).", "quantifier": "all journeys, offset lists strictly sorted by validity, maps from targets to such lists", "why_tests_cant": "Waiting, closing and overtaking variants all depend on the order of validity times around the time of the leg; tests use two or three intervals.", "anchors": ["src/routing/raptor/specify_td_offsets.cc: specify_td_offsets", "include/nigiri/td_footpath.h: get_td_duration", "src/routing/raptor/reconstruct.cc: reconstruct_journey_with_vias"]}
{"id": "C76", "title": "Links between the stations of different feeds, stop groups", "statement": "For every timetable: after the links have been added, the footpaths of a stop are those it had followed by exactly one to each stop of another feed that the r-tree finds within 300 m, provided the stop belongs to a feed and is not near the origin of the coordinates; it takes the walking time but at least the change times of both stops. The same footpath is appended to the incoming ones of the other stop, mirrored lists stay mirrored; exactly the linked stops within 100 m become equivalent. With a symmetric geometry and away from the origin links exist in both directions. A stop group at the origin gets as equivalents exactly the stops its rows name, their children and grandchildren; nothing else changes. Refuted: links exist in both directions in general.", "quantifier": "all timetables, geometries (also asymmetric ones), orders of the r-tree results; all stop group files", "why_tests_cant": "Which stops of two feeds are close together, and in which order the tree returns them, depends on the combination of feeds.", "anchors": ["src/loader/link_nearby_stations.cc: link_nearby_stations", "src/loader/gtfs/stop_group.cc: add_stop_groups", "src/loader/build_footpaths.cc: build_footpaths"]}
{"id": "C77", "title": "The counts per feed are those of the timetable", "statement": "For every timetable and feed: the number of locations and of trip ids of the feed; the number of days is the sum over its trip ids of the days on which some transport of the trip runs, plus the days of every flexible transport, once per id of its trip; first and last day are the first and last one on which a trip or flexible trip of the feed operates, 65535 and 0 if none does. Refuted: every vehicle is counted once (two trip ids of one transport count its days twice).", "quantifier": "all timetables, feeds, traffic days", "why_tests_cant": "Feeds without traffic, trips made of several transports and flexible trips occur together only in real data.", "anchors": ["src/timetable_metrics.cc: get_metrics", "include/nigiri/timetable_metrics.h: timetable_metrics"]}
{"id": "C78", "title": "Texts are shown in the preferred language", "statement": "For every translations.txt and every history of lookups during the load: the rows that count for a field are those of its record (table, field, record id, sub id), otherwise those of its value; without any the value itself is shown in every language. A user with a list of preferred languages sees a text of the first of them that has one (the value itself counts as text of the feed's default language unless a row has that language), otherwise a text of the default language if there is one, otherwise some text. What is shown stays when more texts, languages and feeds are added, and does not depend on the order in which an unstable sort leaves the other languages, except among several texts of one language. Assumes that a record is looked up with one value. Refuted: without that the value of a later lookup is shown; translations of booking rules are used.", "quantifier": "all translation files, lookup histories, preference lists, earlier contents of the timetable", "why_tests_cant": "Texts are built lazily at the first lookup and shared through a cache; the language list grows with every feed.", "anchors": ["src/loader/gtfs/translations.cc: translator::get, read_translations", "src/timetable.cc: register_translation, translate, get_default_translation"]}
{"id": "C79", "title": "The shape of a trip runs from stop to stop along the points of its shape", "statement": "For every shapes.txt: one shape per id in order of first appearance, its points in ascending sequence number (file order when that ascends already), whatever permutation an unstable sort picks; distances belong to their points and are dropped exactly when all are 0. For every trip with at least two stops and a shape with at least as many points, the part of the shape returned for any stretch of stops is the run of points from the point of its first stop to the point of its last stop; the points of the stops never go back, no part is empty, adjacent parts join in one common point. Without distances: the first stop is at the first point, the last at the last, no two stops share a point, each inner stop is matched to the nearer end of the nearest segment among the points that leave one point for each stop between it and two surrounding stops. With ascending distances: the first point that reaches the distance of the stop, otherwise the last. Trips with fewer points than stops have no shape. Refuted: the distances of a trip are used (trips with same shape and stops share those of the first).", "quantifier": "all shapes.txt rows, trips, stop positions and distances, all stretches of stops", "why_tests_cant": "Offsets come from a recursive bisection over sub-spans with unsigned arithmetic; tests use a few fixed shapes.", "anchors": ["src/loader/gtfs/shape.cc: parse_shapes", "src/loader/gtfs/shape_prepare.cc: get_closest, bisect, get_offsets_by_stops, get_offsets_by_dist_traveled, create_offset_tasks, assign_shape_offsets", "src/shapes_storage.cc: get_shape", "include/nigiri/common/sort_by.h"]}
{"id": "C80", "title": "Bounding boxes of routes enclose their stops and shapes", "statement": "For every route and all trips on it: the box of the route is the smallest box around its stops and every point that the shape of a trip passes between two of its stops; the box of a segment is the smallest around its two stops and the points its trips pass on it; a segment past the end has no box; loading does not fail. Assumes that the stops of a trip are at the places of the stops of the route it covers.", "quantifier": "all routes, trips, shapes, positions, numbers of segments", "why_tests_cant": "Segment boxes of a trip are dropped when all lie within the boxes of its stops, and indices are shifted for trips that start inside a route.", "anchors": ["src/loader/gtfs/shape_prepare.cc: process_task, assign_bounding_boxes", "src/shapes_storage.cc: get_bounding_box"]}
{"id": "C81", "title": "The polyline of a ride runs from its first stop to its last one", "statement": "For every scheduled run, every assignment of trips to its sections, every stored shape and every stretch of at least two stops: the trips are reported in order as maximal runs of sections, two of them sharing the stop between them; the polyline is the concatenation, over the trips the stretch runs through, of the part of the shape of the trip for those stops (between the positions of the first and last of them), or of the positions of the stops when the trip has no shape there, with repeated points in a row given once. Without routed shapes it starts at the first stop of the stretch and ends at the last one, has at least two points and no point twice in a row, unless all lie at one place, which is then given twice. A stretch of fewer than two stops is refused. Refuted for routed shapes: the line need not reach the stops.", "quantifier": "all section lists, stretches, stored shapes, stop positions", "why_tests_cant": "Ranges are shifted between the transport, the run and each trip; stretches can begin and end inside any trip.", "anchors": ["src/rt/frun.cc: frun::for_each_trip, frun::for_each_shape_point"]}
{"id": "C82", "title": "Agencies are found by feed and id; ticketing data reach their stops and routes", "statement": "For every set of registered agencies of any number of feeds, once loading is finished a lookup by feed and agency id finds an agency exactly when one was registered under both, and then gives one registered under both. Refuted while feeds are still being loaded: an agency that is registered need not be found. For every ticketing_identifiers.txt, the identifiers of a stop are exactly those of the rows naming a known stop id of it, each with the agency the lookup gives at that time, in order of agencies; rows of unknown stops change nothing. For every ticketing_deep_links.txt the links already there keep their indices, a route without a link id gets none, a route naming an id gets the urls of the first row of this id, and an id with no row is an error.", "quantifier": "all agencies, feeds, rows of both files, sort results", "why_tests_cant": "The binary search is only right on a sorted index; order of feeds and string sharing between feeds decide it.", "anchors": ["src/timetable.cc: timetable::get_provider_idx", "src/loader/register.cc: register_agency", "src/loader/init_finish.cc: finalize", "src/loader/gtfs/ticketing.cc: read_ticketing_identifiers, read_ticketing_deep_links, load_ticketing"]}
