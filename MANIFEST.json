{
 "claims": [
  {
   "property": "C01",
   "status": "proved",
   "theorems": [
    "C01_pop_in_time_order",
    "C01_order_laws_hold"
   ],
   "note": "For every arithmetic whose < is a strict weak order on non-NaN values (shown for exact numbers and binary64)."
  },
  {
   "property": "C02",
   "status": "proved",
   "theorems": [
    "C02_isSorted_truthful",
    "C02_isSorted_exact"
   ],
   "note": "Also shows isSorted() is exactly 'no add since the last sort'."
  },
  {
   "property": "C03",
   "status": "proved",
   "theorems": [
    "C03_conserves_walkers",
    "C03_defined_exactly",
    "C03_sortedAdd_fifo"
   ],
   "note": "Conservation, definedness and FIFO on ties. sort() with NaN times is undefined behaviour of std::sort, excluded by the hypothesis of C03_defined_exactly."
  },
  {
   "property": "C04",
   "status": "proved",
   "theorems": [
    "C04_event_loop_monotone",
    "C04_event_loop_monotone_exact"
   ],
   "note": "General form for any closed set of comparable times (covers binary64) and an exact-arithmetic form."
  },
  {
   "property": "C05",
   "status": "proved",
   "theorems": [
    "C05_index_position_inverse",
    "C05_constructor_builds"
   ],
   "note": "All positive sizes with product at most INT_MAX, any arithmetic; includes absence of int overflow."
  },
  {
   "property": "C06",
   "status": "partial",
   "theorems": [
    "C06_getIndex_partial",
    "C06_periodic_x_partial",
    "C06_periodic_y_partial",
    "C06_periodic_z_partial",
    "C06_index_in_range_refuted",
    "C06_right_iff_partial"
   ],
   "note": "Proved for periodic coordinates not below minus the size; false below that (C06_index_in_range_refuted: negative index). Whenever it answers, the answer is right exactly if no periodic coordinate is below minus the size (C06_right_iff_partial)."
  },
  {
   "property": "C07",
   "status": "partial",
   "theorems": [
    "C07_neighbour_queries_reject",
    "C07_position_queries_reject_partial",
    "C07_negative_index_refuted"
   ],
   "note": "Neighbour and distance queries reject every bad index; getPosition/getX/getY/getZ reject index >= total; negative indices are provably never rejected (refuted)."
  },
  {
   "property": "C08",
   "status": "proved",
   "theorems": [
    "C08_fixed_neighbors_exact",
    "C08_fixed_distances_exact",
    "C08_neighbors_symmetric",
    "C08_neighbors_return"
   ],
   "note": "Exact arithmetic, all-Fixed lattices, every cutoff for which the call returns; C08_neighbors_return gives the range where it does. Larger and negative cutoffs: see C53."
  },
  {
   "property": "C09",
   "status": "partial",
   "theorems": [
    "C09_one_entry_per_image_partial",
    "C09_each_once_iff_partial",
    "C09_neighbors_exact_set",
    "C09_nearest_image_listed",
    "C09_no_repetition_partial",
    "C09_repeated_neighbor_refuted"
   ],
   "note": "The set is exact for every boundary combination and the nearest image is listed; the list holds one entry per image within the cutoff that lies no more than one period below the lattice, in order, so 'each once' holds exactly when no site has two such images (each_once_iff); a simple sufficient condition is proved and the claim is refuted in general."
  },
  {
   "property": "C10",
   "status": "partial",
   "theorems": [
    "C10_table_symmetric",
    "C10_table_sound_partial",
    "C10_table_exact_fixed_partial",
    "C10_table_returns",
    "C10_table_incomplete_refuted",
    "C10_present_iff_partial",
    "C10_table_any_partial",
    "C10_entries_listed_partial",
    "C10_not_smallest_refuted"
   ],
   "note": "Symmetric and sound always. Exact on every lattice: which pairs are in the table (present_iff) and which distance is found (table_any); so pairs are missing on Fixed lattices and entries are not the smallest distance on periodic ones (both refuted with witnesses). Every entry is among the distances listed for either site (entries_listed)."
  },
  {
   "property": "C11",
   "status": "partial",
   "theorems": [
    "C11_smallest_distance_partial",
    "C11_self_distance_refuted",
    "C11_distinct_at_zero_refuted",
    "C11_any_size_partial",
    "C11_any_size_iff_partial",
    "C11_overflow_refuted",
    "C11_answer_partial",
    "C11_smallest_iff_partial",
    "C11_periodic_x_partial",
    "C11_self_partial"
   ],
   "note": "Exact answer on every lattice that can be built under every boundary setting (C11_any_size_partial; the theorems with sizes up to 26000 are the case in which nothing overflows) (along a periodic direction the step count is used as a coordinate; z reads y), with an iff for when it is the smallest image distance: e.g. periodic in x only, exactly when x1 = 0 or x1 is twice the step count. Correct on Fixed lattices without overflow and from coordinate 0; refuted otherwise (self distance positive and equal to the offset from the origin, distinct sites at distance 0). Refuted also on large Fixed lattices: on a sheet of 40000 x 40000 the sum of squares overflows (C11_overflow_refuted)."
  },
  {
   "property": "C12",
   "status": "partial",
   "theorems": [
    "C12_random_on_plane_partial",
    "C12_random_covers_plane_partial",
    "C12_random_throws_partial",
    "C12_xy_throws_refuted",
    "C12_xy_unreachable_refuted",
    "C12_out_of_range_refuted",
    "C12_xy_answer_partial",
    "C12_xy_safe_iff_partial",
    "C12_xy_reach_iff_partial",
    "C12_wrapped_plane_partial"
   ],
   "note": "YZ and XZ planes correct with Fixed across; XY correct for H <= W (stays on plane) and W <= H (covers); refuted otherwise, and k out of range is not rejected in a periodic direction. For the plane XY exact: a draw of y not below the width throws if y is Fixed and wraps if it is Periodic, so the call is safe exactly if H <= W or y is periodic, and exactly the sites with y < H can be returned; planes across a periodic direction are wrapped."
  },
  {
   "property": "C13",
   "status": "proved",
   "theorems": [
    "C13_detailed_balance"
   ],
   "note": "Real arithmetic."
  },
  {
   "property": "C14",
   "status": "proved",
   "theorems": [
    "C14_rate_positive",
    "C14_rate_zero_without_coupling",
    "C14_rate_even_in_coupling",
    "C14_rate_shift_invariant",
    "C14_rate_decreases_away_from_peak",
    "C14_rate_maximal_exactly_at_minus_lambda"
   ],
   "note": "Real arithmetic; in binary64 exp may underflow to 0, which is outside this model."
  },
  {
   "property": "C15",
   "status": "partial",
   "theorems": [
    "C15_lookups_faithful_partial",
    "C15_queries_pure_partial",
    "C15_add_existing_throws_partial",
    "C15_added_is_found",
    "C15_incoming_count_partial",
    "C15_outgoing_count_partial",
    "C15_incoming_rates_partial",
    "C15_outgoing_rates_partial",
    "C15_absent_pair_refuted",
    "C15_query_changes_answers_refuted",
    "C15_addRates_not_atomic_refuted"
   ],
   "note": "Proved for histories without lookups of absent pairs / empty rows; C15_added_is_found holds for all histories. The full statement is false: refutations give the witnesses."
  },
  {
   "property": "C16",
   "status": "partial",
   "theorems": [
    "C16_sources_exact_partial",
    "C16_sinks_exact_partial",
    "C16_phantom_source_refuted",
    "C16_hidden_sink_refuted"
   ],
   "note": "Proved for the same clean histories; false otherwise (phantom source, hidden sink)."
  },
  {
   "property": "C17",
   "status": "proved",
   "theorems": [
    "C17_probabilities",
    "C17_order_independent",
    "C17_add_neighbour"
   ],
   "note": "Exact (real) arithmetic. Any hash-table order, any two implementations; also for addNeighRate."
  },
  {
   "property": "C18",
   "status": "partial",
   "theorems": [
    "C18_pick_interval_partial",
    "C18_pick_minus_one_refuted"
   ],
   "note": "Exact arithmetic: proved for every rate map and every u. Binary64: refuted, rates 1,4,1 and u = 1-2^-53 return -1; C80 bounds how far the doubles are from the exact intervals."
  },
  {
   "property": "C19",
   "status": "proved",
   "theorems": [
    "C19_dwell_time",
    "C19_dwell_scales"
   ],
   "note": "Exact arithmetic; draws are real numbers in (0,1)."
  },
  {
   "property": "C20",
   "status": "partial",
   "theorems": [
    "C20_rate_query_follows_partial",
    "C20_reset_rereads_partial",
    "C20_probabilities_frozen_refuted"
   ],
   "note": "The rate query follows; resetNeighRate rereads all rates. Probabilities and the time constant stay frozen: refuted with a witness."
  },
  {
   "property": "C21",
   "status": "proved",
   "theorems": [
    "C21_occupation_distribution",
    "C21_before_update"
   ],
   "note": "Exact (real) arithmetic. Needs at least one rate between members; without any the code divides 0 by 0 (see C28_unconnected_refuted)."
  },
  {
   "property": "C22",
   "status": "proved",
   "theorems": [
    "C22_solver_stops"
   ],
   "note": "Exact (real) arithmetic. Connectivity is not needed: one rate between two sites of the cluster is enough."
  },
  {
   "property": "C23",
   "status": "proved",
   "theorems": [
    "C23_internal_picks",
    "C23_exit_picks"
   ],
   "note": "Exact (real) arithmetic; first update of the cluster."
  },
  {
   "property": "C24",
   "status": "partial",
   "theorems": [
    "C24_listed_probabilities_partial",
    "C24_picks_frozen",
    "C24_joined_site_refuted"
   ],
   "note": "Listed neighbours and probabilities follow the membership; picks do not: the cumulative tables are never cleared, refuted."
  },
  {
   "property": "C25",
   "status": "partial",
   "theorems": [
    "C25_time_constant_partial",
    "C25_time_constant_refuted"
   ],
   "note": "The weights sum to 1/S with S in (0,1]; S = 1 is refuted by a concrete cluster."
  },
  {
   "property": "C26",
   "status": "proved",
   "theorems": [
    "C26_next_answer",
    "C26_stay_adds_up",
    "C26_clusters_neat"
   ],
   "note": "Exact (real) arithmetic."
  },
  {
   "property": "C27",
   "status": "partial",
   "theorems": [
    "C27_left_walker_partial",
    "C27_removed_walker_remembered",
    "C27_removed_walker_refuted"
   ],
   "note": "Holds after leaving through an exit; refuted for removeWalker, which never clears the remaining time."
  },
  {
   "property": "C28",
   "status": "partial",
   "theorems": [
    "C28_update_succeeds_partial",
    "C28_unconnected_refuted"
   ],
   "note": "Exact arithmetic, for every cluster with at least one internal rate, rates off the cluster below 2^1022 and readable visit counts; refuted for clusters without internal rates in doubles."
  },
  {
   "property": "C29",
   "status": "partial",
   "theorems": [
    "C29_site_occupancy_partial",
    "C29_cluster_occupancy_unseen",
    "C29_cluster_occupancy_refuted"
   ],
   "note": "Per-site answers proved for every history; isOccupied() without a site refuted."
  },
  {
   "property": "C30",
   "status": "proved",
   "theorems": [
    "C30_exclusion"
   ],
   "note": "For every program that uses one system: every arithmetic, hash order, random stream, clock and tie-breaking; any interleaving of configuration, placement on free unclustered sites, hops, removals, queries and rate changes."
  },
  {
   "property": "C31",
   "status": "proved",
   "theorems": [
    "C31_hop_blocked",
    "C31_occupied"
   ],
   "note": "For every reachable state and every arithmetic."
  },
  {
   "property": "C32",
   "status": "partial",
   "theorems": [
    "C32_placement_partial",
    "C32_clustered_refuted"
   ],
   "note": "Holds for sites in no cluster. Refuted for free sites inside clusters: initializeWalkers does not tell the cluster which site is taken, so the next hop can share it."
  },
  {
   "property": "C33",
   "status": "proved",
   "theorems": [
    "C33_other_walkers",
    "C33_one_visit"
   ],
   "note": "For every reachable state and every arithmetic; the visit count is proved for every site that is in no cluster after the hop."
  },
  {
   "property": "C34",
   "status": "partial",
   "theorems": [
    "C34_one_cluster",
    "C34_two_sites",
    "C34_label_partial",
    "C34_ids_not_reused",
    "C34_stay_together",
    "C34_label_refuted",
    "C34_labels_of_valid_programs"
   ],
   "note": "One cluster per site, at least two sites per cluster, ids never reused, sites stay together: proved for every reachable state and arithmetic. getClusterIdOfSite agrees with getClusters whenever it names an existing cluster; with a small performance ratio it can keep naming an absorbed cluster (refuted). For valid programs (ratio at least 1/2, mutual unchanged rates) the labels agree exactly (C34_labels_of_valid_programs)."
  },
  {
   "property": "C35",
   "status": "partial",
   "theorems": [
    "C35_none_left_behind_partial",
    "C35_left_behind_refuted"
   ],
   "note": "Proved for valid programs (performance ratio at least 1/2, mutual unchanged positive rates, no self rates, hops below the int limit): whatever a hop does, the sites of a cluster are together in one cluster afterwards, are labelled with it, their visits can be queried and every walker can hop on. For ratio 1/64 refuted: sites keep the id of a deleted cluster, the query throws and the next hop uses the deleted object."
  },
  {
   "property": "C36",
   "status": "partial",
   "theorems": [
    "C36_no_cluster_partial",
    "C36_long_run_refuted"
   ],
   "note": "Proved for every implementation, number type, generator and explorer: once the threshold is inf_iterations no later call changes which sites are listed in clusters, however many calls follow, until the threshold is set again. Refuted: that hop keeps working for any number of hops; after 2^31-1 hops the int counting hops overflows (C36_long_run_refuted, by induction over the hops)."
  },
  {
   "property": "C37",
   "status": "partial",
   "theorems": [
    "C37_back_off",
    "C37_waiting",
    "C37_minimum",
    "C37_after_success",
    "C37_overflow_refuted"
   ],
   "note": "Proved: the complete back-off automaton of one hop, that only hops and setMinCoarseGrainIterationThreshold move the counters, that the minimum is the last one set (1000 by default), and in terms of clusters alone that after a hop that changed clusters at least the minimum number of hops leave them alone. Refuted: with repeated failures the doubling of the threshold overflows int (C37_overflow_refuted)."
  },
  {
   "property": "C38",
   "status": "partial",
   "theorems": [
    "C38_counts_agree_partial",
    "C38_ints_survive",
    "C38_valid_counts_partial",
    "C38_left_behind_refuted"
   ],
   "note": "For every arithmetic in which ints survive the way through double (real numbers and binary64 are proved to be such), every reachable state and every hop: a site whose count can be read after the hop has the count that the same hop leaves with coarse graining switched off (created clusters start at zero, merges carry the recorded counts of both clusters over). For valid programs in exact arithmetic the readable counts are exactly the same (iff). Refuted in general: with a performance ratio of 1/64 a merge leaves sites behind whose count can no longer be read. Missing: nothing else; visit counters are unbounded integers in the model."
  },
  {
   "property": "C39",
   "status": "partial",
   "theorems": [
    "C39_in_no_cluster",
    "C39_stays_partial",
    "C39_further_hop_undefined",
    "C39_further_hop_refuted",
    "C39_leaves_refuted",
    "C39_basin_with_drain_refuted"
   ],
   "note": "Every program and arithmetic (with 0.001 < 0.001*1.1): a site without rates is in no cluster; a walker on it stays there during all calls but its own, aiming at -1. The second half is false: a further hop is undefined behaviour whenever no site has id -1 (proved for every program), moves the walker away when there is one, and coarse graining a basin with a quick rate into such a site fails an assertion (witnesses)."
  },
  {
   "property": "C40",
   "status": "partial",
   "theorems": [
    "C40_half_partial",
    "C40_new_cluster_partial",
    "C40_merged_refuted"
   ],
   "note": "Valid programs: the increment of every cluster is its time constant over its resolution, positive and at most half the time constant; a cluster created by a hop gets min(time resolution, half the time constant). Refuted for merged clusters: merging lengthens the time constant and keeps the resolution, so the increment exceeds the time resolution (witness)."
  },
  {
   "property": "C41",
   "status": "partial",
   "theorems": [
    "C41_drains_agree_partial",
    "C41_drains_exact",
    "C41_drains_in_doubles",
    "C41_seeded_runs_agree_partial",
    "C41_drain_refuted",
    "C41_second_run_refuted",
    "C41_second_run_agrees_partial"
   ],
   "note": "Proved for every program that sets the seed before initializeSystem. If its rate maps give every site outgoing rates, the two runs end in the same whole state, for every pair of clocks, arithmetic, engine, hash order and tie-breaking of the graph library (the last two are the same in both runs). With target-only sites (whose engines are seeded from the clock) the two runs agree in everything that can be asked (walkers, dwell times, clusters, occupation, visits) as long as no engine returns 0: C41_drains_exact for real numbers in (0,1), C41_drains_in_doubles when -log(u) is a positive finite double. Refuted with target-only sites when 0 is drawn (C41_drain_refuted: not-a-number). Refuted for a second run in one process: cluster ids come from a process-wide counter (C41_second_run_refuted); nothing but the ids differs, each by the same number (C41_second_run_agrees_partial, for hash tables that move with their keys)."
  },
  {
   "property": "C42",
   "status": "proved",
   "theorems": [
    "C42_basin_search_any",
    "C42_basin_rates"
   ],
   "note": "Bookkeeping for every arithmetic and every rate; the rates inside and out of the basin over exact arithmetic for thresholds >= 0. The graph library is modelled by its contract (any frontier edge may come next)."
  },
  {
   "property": "C43",
   "status": "partial",
   "theorems": [
    "C43_threshold_refuted"
   ],
   "note": "Refuted: for positive rates and thresholds >= 0 the search result does not depend on the threshold (exact arithmetic)."
  },
  {
   "property": "C44",
   "status": "partial",
   "theorems": [
    "C44_resolution_first_partial",
    "C44_resolution_positive_partial",
    "C44_walkers_after_sites_partial",
    "C44_bad_walker_partial",
    "C44_seed_first_partial",
    "C44_atomic_refuted"
   ],
   "note": "Proved for every reachable state: the documented errors (resolution missing, non-positive resolution, walkers before sites, unplaced walker or walker on unknown site, late seed) and that those calls leave the state alone. Refuted: that every throwing call changes nothing; initializeWalkers keeps earlier walkers' sites occupied and a second initializeSystem keeps new sites (C44_atomic_refuted)."
  },
  {
   "property": "C45",
   "status": "proved",
   "theorems": [
    "C45_registered",
    "C45_none_before",
    "C45_probabilities",
    "C45_returns"
   ],
   "note": "Registration for every reachable state; the hop probabilities and that the call returns are over exact reals with infinities, for finite positive rates."
  },
  {
   "property": "C46",
   "status": "partial",
   "theorems": [
    "C46_clusters_can_be_left_partial",
    "C46_dwell_times_partial",
    "C46_whole_system_refuted"
   ],
   "note": "Proved for valid programs: every cluster has two sites, is connected, has a rate leading out and is left more slowly than crossed; its time constant is positive and dwell times are drawn. Refuted for ratio 1/64: a merge of all sites fails an assertion."
  },
  {
   "property": "C47",
   "status": "proved",
   "theorems": [
    "C47_smallest",
    "C47_any_order",
    "C47_survivor"
   ],
   "note": "The choice for every map of ids, and its effect on every call in every reachable state."
  },
  {
   "property": "C48",
   "status": "partial",
   "theorems": [
    "C48_hop_returns_partial",
    "C48_removal_returns_partial",
    "C48_visits_return_partial",
    "C48_simulation_runs_partial",
    "C48_self_rate_refuted"
   ],
   "note": "Hops, removals, visit queries and whole simulations return, for all rate maps, schedules, streams of draws in (0,1), clocks and hash orders. Extra hypotheses: no rate from a site to itself (refuted otherwise: assertion failure), no site with the reserved id, a non-negative threshold, and a bound on the number of hops in terms of the smallest and largest rates (int visit counters)."
  },
  {
   "property": "C49",
   "status": "partial",
   "theorems": [
    "C49_site_container_partial",
    "C49_smallest_query_refuted",
    "C49_batch_add_refuted",
    "C49_cluster_container"
   ],
   "note": "Cluster_Container: every history behaves as a finite map. Site_Container: the same for histories whose smallest-cluster queries name known sites; that query on an unknown id inserts a site, and addSites that throws keeps a prefix (both refuted)."
  },
  {
   "property": "C50",
   "status": "proved",
   "theorems": [
    "C50_walker_site",
    "C50_walker_potential",
    "C50_walker_dwell",
    "C50_walker_reserved_id",
    "C50_identity"
   ],
   "note": "The reserved id INT_MIN counts as 'none given'."
  },
  {
   "property": "C51",
   "status": "proved",
   "theorems": [
    "C51_only_in_equilibrium",
    "C51_whenever_in_equilibrium",
    "C51_every_hop"
   ],
   "note": "For distinct neighbours with finite positive rates (which may change between calls). The converse, that a due attempt coarse grains a basin that satisfies the condition, is proved for valid programs."
  },
  {
   "property": "C52",
   "status": "proved",
   "theorems": [
    "C52_prefactor_documented"
   ],
   "note": "Real arithmetic with the decimal constants of constants.hpp."
  },
  {
   "property": "C53",
   "status": "partial",
   "theorems": [
    "C53_large_cutoff_refuted",
    "C53_negative_cutoff_refuted"
   ],
   "note": "Holds for 0 <= cutoff < 646 spacings (C08_neighbors_return); refuted for cutoffs >= 646 spacings and for negative ones: the call never returns."
  },
  {
   "property": "C54",
   "status": "proved",
   "theorems": [
    "C54_solver_result",
    "C54_settings_are_followed",
    "C54_fixed_points"
   ],
   "note": "Exact (real) arithmetic."
  },
  {
   "property": "C55",
   "status": "proved",
   "theorems": [
    "C55_walkers_aim_along_rates",
    "C55_walkers_move_along_rates"
   ],
   "note": "For valid programs within the hop bound of C48, exact arithmetic."
  },
  {
   "property": "C56",
   "status": "proved",
   "theorems": [
    "C56_queries_leave_simulation"
   ],
   "note": "For every arithmetic, clock, random engine and schedule; both programs are assumed to run to the end (a query may itself throw, C48). The unordered_map may place keys anywhere as long as the place does not depend on the values."
  },
  {
   "property": "C57",
   "status": "partial",
   "theorems": [
    "C57_query_again_partial",
    "C57_earlier_queries_refuted"
   ],
   "note": "Proved for queries with nothing in between, for every arithmetic and every state in which both answers exist. Refuted in general: a program that asks for a site of a cluster after every hop ends with a smaller count than the same program without these queries, because each query rounds the share of the hops since the last one."
  },
  {
   "property": "C58",
   "status": "proved",
   "theorems": [
    "C58_plain_kmc"
   ],
   "note": "Refinement: in exact arithmetic every run of the abstract process (KmcSpec.v) is matched call by call by the library, which returns normally and shows the same walkers, visits and occupation. The site chosen with a number is fixed completely: the intervals of the neighbours follow each other in the order of their ids. Any threshold, or none set, for as many hops as the threshold (1000 if none) and at most INT_MAX (the hop counter overflows after that, C36). Hypotheses: finite positive rates, draws strictly between 0 and 1, distinct keys, the reserved id INT_MIN not used as a site."
  },
  {
   "property": "C59",
   "status": "proved",
   "theorems": [
    "C59_recipe",
    "C59_detailed_balance",
    "C59_valid_rates",
    "C59_every_site"
   ],
   "note": "In exact arithmetic, with the literals of the example as parameters, for sizes and cutoffs for which getNeighborDistances does not overflow (C08-C10 describe that table, including the pairs it misses). C59_recipe fixes the set of rates and their values, C59_detailed_balance the ratio of forward and backward rates, C59_valid_rates that the map meets the hypotheses of C48, C55 and C58, C59_every_site that no site is without a rate."
  },
  {
   "property": "C60",
   "status": "proved",
   "theorems": [
    "C60_positive_dwell_times"
   ],
   "note": "For valid programs in exact arithmetic, with draws in (0,1), rates within bounds and a number of hops within few_hops (the bound of C48, which keeps counters in range)."
  },
  {
   "property": "C61",
   "status": "proved",
   "theorems": [
    "C61_bookkeeping",
    "C61_in_system",
    "C61_charges_left"
   ],
   "note": "For every kind of numbers, every rate map, also invalid ones: about each state the loop reaches. The main loop after n steps is tof_main (TofLoop.v); populateLattice, the random energies and printing are left out."
  },
  {
   "property": "C62",
   "status": "proved",
   "theorems": [
    "C62_runs",
    "C62_in_order",
    "C62_sampling",
    "C62_charges_left",
    "C62_example_rates"
   ],
   "note": "In exact arithmetic. C62_runs: it returns, or stops on the assertion of createQueue and then no dwell time is below the cutoff; C62_in_order, C62_sampling, C62_charges_left: order, windows and counts; C62_example_rates: the rates of C59 meet the hypotheses. Number of steps within few_hops (the bound of C48)."
  },
  {
   "property": "C63",
   "status": "partial",
   "theorems": [
    "C63_charge_balance",
    "C63_one_sample",
    "C63_last_sample",
    "C63_every_sample_refuted"
   ],
   "note": "C63_charge_balance and C63_one_sample prove the claim between samples as long as a charge remains. C63_last_sample proves that it fails in the sample in which the last charge is collected: there the code computes 0/0 and records NaN. C63_every_sample_refuted shows it in floating point."
  },
  {
   "property": "C64",
   "status": "proved",
   "theorems": [
    "C64_placed",
    "C64_returns",
    "C64_too_many",
    "C64_rates_bounded",
    "C64_whole_program"
   ],
   "note": "C64_placed, C64_returns and C64_too_many for every arithmetic and every sequence of draws; C64_rates_bounded and C64_whole_program (composition of C59, C62 and C64) in exact arithmetic, for sums of rates below 2^1022."
  },
  {
   "property": "C65",
   "status": "partial",
   "theorems": [
    "C65_doubles_compute_alike",
    "C65_other_unit_partial",
    "C65_any_run_partial",
    "C65_binary_unit_partial"
   ],
   "note": "Proved in exact arithmetic for valid programs with rates and hops in bounds in both units (ValidSpec.v): C65_other_unit_partial says the program also runs in the new unit, C65_any_run_partial that every run that returns gives the same. With rounding, C65_binary_unit_partial: for every program, valid or not, two runs that return give the same in 53-bit arithmetic without overflow or underflow, for units that are powers of two; C65_doubles_compute_alike says that doubles compute the same as that arithmetic while no result overflows or is subnormal (sqrt, used in clusters only to test convergence, and log are parameters of the arithmetic). The two graph libraries make corresponding choices, and no cluster has the time constant that marks an unknown one. Missing: units that are not powers of two with rounding, and doubles that overflow or underflow."
  },
  {
   "property": "C66",
   "status": "partial",
   "theorems": [
    "C66_unclustered_visits_partial",
    "C66_clustered_visits_refuted"
   ],
   "note": "Proved for sites outside clusters. Refuted for sites in clusters: the share of a site is dimensionally a time, so the same program in a unit 64 times shorter counts 49 visits instead of 2 (C66_clustered_visits_refuted, exact powers of two)."
  },
  {
   "property": "C67",
   "status": "proved",
   "theorems": [
    "C67_solver_converges"
   ],
   "note": "Exact (real) arithmetic. Existence and uniqueness by contraction of the oscillation over blocks of iterations (MasterLimit.v)."
  },
  {
   "property": "C68",
   "status": "partial",
   "theorems": [
    "C68_exit_probabilities_partial",
    "C68_entry_site_refuted"
   ],
   "note": "Proved for a walker whose first site is drawn from the quasi-stationary distribution (C68_exit_probabilities_partial). Refuted for a walker that starts on the site it entered by: two sites with unit rates, 2/3 against the 1/2 of the cluster (C68_entry_site_refuted): the cluster forgets the entry."
  },
  {
   "property": "C69",
   "status": "partial",
   "theorems": [
    "C69_mean_stay_partial",
    "C69_too_long_refuted",
    "C69_trap_refuted"
   ],
   "note": "Proved: the limit is T'/s, T' the part of the mean stay spent on sites with a rate out, s the probability that a hop stays inside. So the time constant is the mean stay divided by s at best, and leaves interior sites out. Refuted both ways: twice the mean stay for two sites with unit rates (C69_too_long_refuted); at most 2 while the mean stay exceeds any bound when a slow site lies between two sites with exits (C69_trap_refuted)."
  },
  {
   "property": "C70",
   "status": "partial",
   "theorems": [
    "C70_own_calls_partial",
    "C70_as_if_alone",
    "C70_untouched",
    "C70_hop_returns",
    "C70_ids_refuted"
   ],
   "note": "Proved: each system is in a state it could reach alone (so every theorem about reach holds for each of several systems), its answers and walkers are left alone by calls of others, and hops of a valid system return. Refuted: what a system reports depends only on its own calls; cluster ids come from one static counter, so they depend on the clusters other systems made before (C70_ids_refuted). Assumed: a walker is in one system at a time. Up to these ids, seeded systems do depend only on their own calls: C70_own_calls_partial, under the conditions of C87."
  },
  {
   "property": "C71",
   "status": "partial",
   "theorems": [
    "C71_time_shares_partial",
    "C71_boltzmann_partial",
    "C71_balanced_partial",
    "C71_uneven_exits_refuted"
   ],
   "note": "Proved: the shares of internal picks tend to the fractions of time of a hop-by-hop walker that starts in the quasi-stationary distribution (C71_time_shares_partial), and to the Boltzmann distribution when the same fraction of every member's rate leads out (C71_boltzmann_partial; C71_balanced_partial for any balanced rates). For the picks after the first update of a cluster; later updates append to the tables (C24). Refuted: Boltzmann with uneven exits (C71_uneven_exits_refuted)."
  },
  {
   "property": "C72",
   "status": "proved",
   "theorems": [
    "C72_dwell_times",
    "C72_total",
    "C72_goes_on",
    "C72_hops",
    "C72_arrivals"
   ],
   "note": "For valid programs in exact arithmetic, with draws in (0,1), rates within bounds and a number of hops within few_hops (the bound of C48). StaySpec.v defines a stay as the hops of one walker with any other calls in between. Where the walker goes when the stay is over is not part of the claim (the exit tables of a grown cluster contain stale entries, C25, C54)."
  },
  {
   "property": "C73",
   "status": "proved",
   "theorems": [
    "C73_free_sites"
   ],
   "note": "For valid programs in exact arithmetic, with draws in (0,1), rates within bounds and a number of hops within few_hops; the intervals are fixed before the later calls, which may be any."
  },
  {
   "property": "C74",
   "status": "proved",
   "theorems": [
    "C74_same_sites",
    "C74_no_losses"
   ],
   "note": "For every arithmetic. The time constant is compared inside the cluster (time_constant); resolution and increment are what getResolutionOfClusters and getTimeIncrementOfClusters report."
  },
  {
   "property": "C75",
   "status": "proved",
   "theorems": [
    "C75_bounds"
   ],
   "note": "For valid programs in exact arithmetic, with draws in (0,1), rates within bounds and a number of hops within few_hops."
  },
  {
   "property": "C76",
   "status": "partial",
   "theorems": [
    "C76_inside",
    "C76_exits",
    "C76_leaves_partial",
    "C76_trapped",
    "C76_leaves_refuted"
   ],
   "note": "Proved: the shares, computed from the sites, rates and probabilities at the time the cluster was created, are those with which it sends on every walker ever after (C76_inside, C76_exits), so that a walker whose stay is over leaves a cluster that has gained no sites (C76_leaves_partial). False for clusters that have grown: their tables are appended to, not recomputed, and a cluster that has gained all its first neighbours never sends a walker anywhere else (C76_trapped); a chain of four sites on which a walker can never reach the fourth (C76_leaves_refuted)."
  },
  {
   "property": "C77",
   "status": "proved",
   "theorems": [
    "C77_ids_are_names",
    "C77_same_failures",
    "C77_shared_ids_refuted"
   ],
   "note": "Proved for every program and every renaming that keeps the ids of the program apart (C77_ids_are_names, C77_same_failures). C77_shared_ids_refuted shows that this condition is needed: a second walker with the same id goes on with the stay of the first."
  },
  {
   "property": "C78",
   "status": "proved",
   "theorems": [
    "C78_counters_bounded",
    "C78_no_overflow",
    "C78_visits_of_free_site"
   ],
   "note": "Bounds by the number of arrivals and departures for every reachable state and every arithmetic, and the int range for every program short enough. The sum that getVisitFrequencyOfSite forms for a clustered site is not covered (C38 covers its value)."
  },
  {
   "property": "C79",
   "status": "proved",
   "theorems": [
    "C79_time_constant_and_probabilities"
   ],
   "note": "Binary64 with correct rounding to nearest; rates between 2^-400 and 2^400 and at most 2^40 neighbours, so that nothing overflows or underflows."
  },
  {
   "property": "C80",
   "status": "proved",
   "theorems": [
    "C80_picks"
   ],
   "note": "Binary64, same range of rates as C79. For draws within the margin of the end of an interval nothing is claimed; a neighbour called -1 cannot be told from a failed pick."
  },
  {
   "property": "C81",
   "status": "proved",
   "theorems": [
    "C81_dwell_times",
    "C81_log_exists"
   ],
   "note": "Binary64, same range of rates as C79; the C library's log is assumed correct to one unit in the last place at the draw, which the correctly rounded log is (C81_log_exists)."
  },
  {
   "property": "C82",
   "status": "proved",
   "theorems": [
    "C82_free_sites"
   ],
   "note": "Binary64, same range of rates as C79, log as in C81; every reachable state and any later calls that return. Nothing is claimed for draws within the margin of an end of an interval."
  },
  {
   "property": "C83",
   "status": "partial",
   "theorems": [
    "C83_one_process_partial",
    "C83_neighbours_in_any_order_partial",
    "C83_sites_in_another_order_refuted"
   ],
   "note": "Exact arithmetic, seeded programs, hops before the first search for a cluster (as in C58). Refuted for the order of the sites by a witness; proved for the order of the neighbours and for different hash tables, and up to an exchange of the streams for any order. Missing: what happens in clusters."
  },
  {
   "property": "C84",
   "status": "proved",
   "theorems": [
    "C84_plain_kmc_in_doubles",
    "C84_no_event_is_refused"
   ],
   "note": "Binary64 with the range of rates of C79. Refinement: every run of the abstract process (FloatKmcSpec.v) is matched call by call by the library, which returns normally and shows the same walkers, bit for bit. The process stops where a number within the margin at 1 draws -1 (C18); C84_no_event_is_refused says that this is the only reason. As many hops as the threshold, at most INT_MAX. The accuracy of log is a hypothesis on each number for which a waiting time is claimed."
  },
  {
   "property": "C85",
   "status": "partial",
   "theorems": [
    "C85_site_tally",
    "C85_site_occupied_partial",
    "C85_vacated_while_free_refuted",
    "C85_cluster_tally",
    "C85_every_cluster_has_counts",
    "C85_cluster_never_occupied"
   ],
   "note": "Counts proved for every history. \"Occupied exactly while a walker is on it\" holds if nobody leaves who had not come and the status is not set by hand (C85_site_occupied_partial); refuted for a site vacated while free."
  },
  {
   "property": "C86",
   "status": "proved",
   "theorems": [
    "C86_cluster_ids_are_names"
   ],
   "note": "For every program, seeded or not, with the same clock and engines in both runs, and hash tables whose order depends on the distances between keys (shown of tables with buckets by remainder)."
  },
  {
   "property": "C87",
   "status": "partial",
   "theorems": [
    "C87_among_others_partial"
   ],
   "note": "Proved for programs with any number of systems called in any order, for hash tables whose order does not depend on the gaps between ids (e.g. order of insertion) and a graph library that breaks ties alike in every search. Missing: tables that place an id by its remainder as libstdc++ does (for ids that differ by a constant see C86), rates changed between calls, walkers that go from one system to another; the converse (alone it returns, so among others it does) is not stated since another system may fail."
  },
  {
   "property": "C88",
   "status": "proved",
   "theorems": [
    "C88_coordinates",
    "C88_by_position",
    "C88_sites_of_distances",
    "C88_bad_position"
   ],
   "note": "Every arithmetic and every lattice that can be built; outcomes compared as a whole, with exceptions and failures."
  }
 ]
}