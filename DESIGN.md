# Formal model of MythiCaL in Rocq

## 1. What is modelled

Hand-written executable Gallina models of the library code in `/repo/CoarseGrainSites`,
read as text. Nothing is extracted from or run against the C++. Each definition cites the lines it models.

| Model file | Code modelled |
|---|---|
| `Base.v` | outcomes (`Ret`, `Thr` with state, `Halt` for assert / UB / divergence), `int` range, unordered containers |
| `Num.v`, `F64.v`, `B53.v` | the operations on `double` the code uses, as a record; instances `XR` (exact), `F64` (binary64) and `B53` (53 bits, rounded as binary64, no limits on the exponent) |
| `QueueModel.v` | `queue.cpp` |
| `WalkerModel.v` | `walker.cpp`, `identity.hpp` |
| `LatticeModel.v` | `cuboid_lattice.cpp` |
| `MarcusModel.v` | `marcus.cpp`, `constants.hpp` |
| `RateModel.v` | `rate_container.cpp` |
| `SiteModel.v` | `topology_feature.cpp`, `site.cpp` |
| `ClusterModel.v` | `cluster.cpp` |
| `ContainerModel.v` | `site_container.cpp`, `cluster_container.cpp` |
| `BasinModel.v` | `basin_explorer.cpp`, `graph_library_adapter.hpp/.cpp`; UGLY by contract |
| `SystemModel.v` | `coarsegrainsystem.cpp` |
| `TofModel.v` | `examples/ToF/ToF_example.cpp`: calculateRates |
| `TofLoop.v` | `examples/ToF/ToF_example.cpp`: main from initializeSystem to the end of the loops, createQueue |
| `TofStart.v` | `examples/ToF/ToF_example.cpp`: populateLattice |

Not modelled: `log.hpp` and the `operator<<` functions (text output), `version.hpp.in`, of the example `ToF` the normal distribution of the energies and the output (the example names the lattice class `Cubic`, the
library `Cuboid`; the model takes them for the same), the example `version`, the tests,
the contents of UGLY.

### Where things are

* **Specifications** `*Spec.v` (and `ClusterHist.v`): vocabulary of the theorem statements, written without the model's helpers.
* **Theorems** `Prop*.v`: each theorem is closed by `exact`, followed by `Print Assumptions`; the `Example …_nonvacuous`
  beside it runs a concrete case through its hypotheses.
* **Proofs**, bottom up:
  * maps, numbers, sums: `BaseProofs`, `OrdLaws`, `RSum`, `F64Whole` (ints survive binary64), `Fuel` (more fuel, same result);
  * `QueueProofs`, `WalkerProofs`, `RateProofs`, `MarcusProofs`, `LatticeProofs`/`LatticeReal`/`LatticeTable`/`LatticeExact`/`LatticeAny`/`LatticeMore`/`LatticeImages`/`TableImages`/`TableListed`/`OverloadProofs`, `TofProofs`, `SiteProofs`;
  * clusters, every arithmetic: `ClusterFrame`, `ClusterOps`, `ClusterStay`, `ClusterCounts`;
  * clusters, exact arithmetic: `MasterEq`/`MasterBlocks` (power iteration), `ClusterReal`, `ClusterTables`, `ClusterUpdate`,
    `ClusterProofs`, `ClusterSome`, `ClusterTime`, `ClusterPick`, `ClusterSolver`, `ClusterNet` (examples), `ClusterLive`;
  * containers and search: `ContainerProofs`, `BasinProofs`, `CrossProofs`;
  * system, every arithmetic: `SystemShape` (invariant), `SystemHop`, `SystemCoarse`, `SystemMerge`, `SystemProofs`,
    `SystemFacts`, `SystemControl`, `SystemInit`, `SystemEffect`, `SystemDrain`, `SystemSeed`, `SystemDrainSeed`, `SystemRename`, `SystemApart`, `SystemVisits`, `SystemQuery`, `SystemName`; several systems: `ManyProofs`, `AmongProofs`;
  * system, exact arithmetic: `SystemEquil`, `SystemLive`, `SystemGrow`, `SystemTotal`, `SystemDue`, `SystemStart`,
    `SystemValid`, `SystemReport`, `SystemChain` (example), `SystemKmc` (refinement of kinetic Monte Carlo), `SystemOrder` (listings of rates);
  * loop of the example: `TofLoopProofs` (any arithmetic), `TofLoopCharge`, `TofLoopValid` (exact arithmetic), `TofLoopRun` (example), `TofStartProofs`, `TofBound`;
  * the unit of time: `UnitNum`, `UnitCluster`, `UnitUpdate`, `UnitMerge`, `UnitBasin`, `UnitSystem` (for every lawful arithmetic), `UnitRuns` (exact), `UnitAny`, `B53Unit` (rounded);
  * `B53Proofs`: the numbers of `B53` are rounded as doubles are;
  * clusters against a walker that hops site by site: `MasterLimit` (limit of the iteration), `EscapeProofs`, `EscapeNet` (examples), `ThermalProofs`, `ThermalNet` (internal picks);
  * sites in doubles: `FloatProofs`, `FloatSite`; walkers outside of clusters in doubles: `FloatSystem`; simulations without clusters in doubles: `FloatKmc` (specification `FloatKmcSpec`, with the names of `KmcSpec`: the two are never imported together);
  * several systems in one program: `ManyProofs`;
  * occupation and visits as counts: `TallyProofs` (model of the remaining calls `TallyModel`, specification `TallySpec`);
  * stays of walkers in clusters of a running system: `SystemOps` (every call as operations on its clusters, any arithmetic), `SystemTables` (which calls change what a cluster reports), `SystemSites` (what a site knows of its rates never changes, any arithmetic), `SystemFree` (walkers outside of clusters), `SystemStay`, `SystemExit` (the tables a new cluster picks from, and that they only grow), `ExitNet` (a chain that traps a walker);
  * `SystemRuns`, `SystemLong`: concrete runs used as witnesses.

## 2. Modelling decisions

* **Outcomes.** `assert` is active (the default build does not define `NDEBUG`); a failing one is
  `Halt AssertFailed`. `assert("text")` is a no-op, as in C++. Undefined behaviour (null or dangling
  pointer, signed overflow, division by zero, `front()` of an empty deque, float-to-int out of range)
  is `Halt Undefined`. Exceptions are `Thr e s` and keep the state at the throw, so partial effects show;
  two exceptions, where what was already changed is not kept: `absorb` (when `migrateSitesFrom` throws, the two clusters) and
  `c_getVisits` (the visits remembered for sites).
  Loops without a bound in the code take fuel; running out is `Halt Diverged`, never a value. `Fuel.v` proves that a
  result other than `Diverged` does not depend on the fuel.
* **double.** The model is written over a record `Num` of operations. Theorems about bookkeeping
  (occupancy, membership, ids, counters) hold for *every* `Num`, hence for IEEE doubles with all rounding.
  Theorems about values use the instance `XR`: real numbers plus `+inf`, `-inf`, `NaN`, no rounding, so
  a zero denominator is visible and must be excluded by proof. Refutations that depend on rounding and the error
  bounds of C79 to C82 use Coq's primitive binary64 floats (`F64`). `sqrt`/`pow(x,0.5)`, `log`, `exp` are exact in `XR`; in binary64 `log` is a parameter.
  C65 also uses `B53`: numbers with 53 bits, rounded to nearest even, whose exponents have no limits (`sqrt` and `log` are
  parameters; signed zeros are not kept apart). `B53Proofs.v` proves that doubles compute the same while no result overflows or is subnormal.
* **int.** `Z`; 32-bit overflow is an explicit `Undefined` in the lattice and in the hop counters.
  Visit counters, occupation counters and cluster ids are unbounded; C78 proves that they stay within int for every
  program with fewer than 2^31 - 1 placements and hops.
* **unordered_map.** An association list whose order *is* the iteration order. Insertion places the new
  key where an arbitrary implementation (class `Impl`: any function returning a permutation) says; every theorem
  quantifies over it. Copies keep the order.
* **Pointers to rates.** A `loc`; the user's memory is a total function `loc -> num` that the user may change
  between calls (the user's map is assumed to stay alive).
* **Pointers to features.** `topology_features_` maps a site to `PNull`, `PSite s` or `PCluster c`; following
  `PNull` or a cluster that has been erased is `Undefined`.
* **Random numbers.** An engine is a value of an arbitrary type with `seed` and `draw` (class `Rng`); theorems quantify
  over it. Value theorems assume draws strictly between 0 and 1.
* **Clock.** An arbitrary function `clk : Z -> Z`, read at a counter of readings.
* **UGLY** (graph library, absent from the checkout) is a class `Ugly` of arbitrary choices: the order in which edges are
  offered, *any* frontier edge as the next one (weaker than its documented "largest first"), the order of vertices, and an
  arbitrary answer for the distance of unreachable pairs; distances of reachable pairs are shortest paths.
* **std::sort** is any function returning a sorted permutation.

## 3. Trusted base

Coq 8.16.1's kernel (including `vm_compute` and primitive 63-bit integers and floats in examples and refutations), the axioms
in the appendix, all from the standard library (Flocq, used for C79 to C82, adds none of its own), and the reading of the C++ by hand.
Not modelled: memory allocation and exhaustion, logging, stream output, threads (the code has none), UGLY's own code,
`std::mt19937`'s actual stream, the user destroying rates, walkers or the rate map while the system points to them.

## 4. How each group of properties is proved

* C01-C04: lists of (id,time) with abstract `<`; invariants over operation lists; C04 by induction over loop steps.
* C05-C07, C12, C53: integer arithmetic on `Z` with overflow checks.
* C08-C11: the triple loop as a list; soundness and completeness; exact distances in `R`; refutations for wrapping boxes.
* C13, C14, C52: algebra in `R`.
* C15, C16: association maps with inserting `operator[]` against a flat list of rates; refutations for lookups of absent pairs.
* C17-C20: set insertion with the truncating comparator; scan of cumulative sums; C18 also refuted in binary64.
* C21, C22: invariant of the damped iteration and a Doeblin contraction argument, also on unconnected members.
* C23-C29, C54: sums of the tables; invariants over histories of cluster calls; refutations by concrete clusters.
* C30-C34, C36, C37, C44, C45, C47: one invariant over every program (`reach`, `SystemSpec.v`), for every arithmetic.
* C35, C46, C48, C51, C55: valid programs (`ValidSpec.v`): basins that satisfy the equilibrium condition are nested or
  disjoint, so merges join whole clusters; from that every call returns and every cluster keeps its exits.
* C38: the counts a cluster reports are carried through creation, absorption and merging; int to double and back is the identity.
* C39: frame of a walker on a site without rates. C40: formulas for created clusters, refuted for merged ones.
* C41: relational invariant of two runs with different clocks; with drains it allows the engines of sites without rates, and of the copies kept in clusters, to differ. C86: relational invariant of two runs whose cluster ids differ by a constant (`ShiftSpec`: hash tables over ids move with the ids, as tables that place a key by the remainder of its id do; C86_buckets_nonvacuous). C87: the same with other systems taking ids between the calls; the two runs are matched by an increasing renaming of ids that is extended whenever a cluster is created elsewhere (`SystemRename`), and walkers of other systems do not matter (`SystemApart`, `AmongProofs`; statement in `AmongSpec`). C56, C57: relational invariant of two runs with different
  visit queries (`QuerySpec.v`).
* C58: refinement between the system and an abstract kinetic Monte Carlo process (`KmcSpec.v`), for programs that make
  no more hops than the coarse graining threshold. C83: two listings of the rates refine the same process.
  C84: the same refinement for every arithmetic (`FloatKmc.v`), with the tables of a site in doubles (C79-C81) put in.
* C59: the rates of the time of flight example, for every lattice, recipe and list of energies: two nested inductions
  over the distance table.
* C60: positive dwell times, part of the invariant of valid programs (`SystemLive.v`, `ClusterLive.v`).
* C61-C63: the loop of the time of flight example as a transition system; invariants over its steps, on top of the
  invariants of C48 and C60. C63: an account of charge times displacement; refuted for the last sample (0/0).
* C64: induction over the draws; bounds on the rates; composition of C59, C62 and C64.
* C65, C66: relational invariant of two runs in different units of time (`UnitSpec.v`), for every arithmetic with the laws
  of `UnitNum.v` (`lawful`): exact numbers with any unit, 53-bit numbers with units that are powers of two; C66 refuted for sites in clusters,
  where the formula of the visit counts has the dimension of a time.
* C67-C69: the iteration contracts the spread of the ratios of two vectors over blocks, so it has exactly one fixed
  shape (`MasterLimit.v`); the stay of a walker is a geometric series (`EscapeSpec.v`). C68 and C69 refuted as they stand.
* C71: with balanced rates and even exits the fixed shape is weight times total rate (`ThermalSpec.v`); C13 gives the weights.
* C72, C73: a stay (`StaySpec.v`) is one walker's hops with any calls in between; every call of the system is a list of
  operations on each cluster, none of which touches the walker's remaining time unless it is its own hop.
* C74: every call leaves a cluster's tables alone unless the cluster gains a site (`SystemTables.v`). C75: bounds of the iteration
  carried by the invariant of C48.
* C76: a new cluster's tables are exact cumulated shares (`SystemExit.v`); growing appends to them, and a draw below 1 never gets
  past the first entries, which also refutes the claim for grown clusters (`ExitNet.v`).
* C77: two runs with different walker ids end in the same way (`follows`, `SystemName.v`): clusters look the remaining
  stays up by id and never go through them, so the stays of the renamed walkers are the same at every call.
* C78: Hoare-style invariant: placing and hopping add at most one to a counter, leaving takes at most one (`CounterSpec.v`,
  `SystemCounter.v`).
* C79 to C81: sites in doubles: one relative error of 2^-53 per rounded operation, from Flocq's proofs about IEEE 754 and the
  standard library's specification of primitive floats (`FloatSpec.v`, `FloatProofs.v`, `FloatSite.v`); rates between 2^-400
  and 2^400 keep every operation away from overflow and underflow.
* C82: `initializeSystem` builds the site as in C79, no later call changes its time constant or table (`SystemSites.v`), and a hop
  that ends on it draws twice (`SystemOps.v`); the errors are those of C80 and C81.
* C70: programs with several systems (`ManySpec.v`); a call of another system is a change of shared memory that `reach` allows.
* C42, C43: visitor model; C43 refuted (the first disjunct can never hold).
* C49, C50: refinement of finite maps.
* Mutation tests of the theorems are logged in `seeded/LOG.jsonl`; `failed` there lists the theorems whose proofs no
  longer go through after the edit.

## Appendix: what `Print Assumptions` lists for each theorem

* **Closed under the global context**: `C01_pop_in_time_order`, `C02_isSorted_exact`, `C02_isSorted_truthful`, `C03_conserves_walkers`, `C03_defined_exactly`, `C03_sortedAdd_fifo`, `C04_event_loop_monotone`, `C05_constructor_builds`, `C05_index_position_inverse`, `C06_getIndex_partial`, `C06_index_in_range_refuted`, `C06_periodic_x_partial`, `C06_periodic_y_partial`, `C06_periodic_z_partial`, `C06_right_iff_partial`, `C07_negative_index_refuted`, `C07_neighbour_queries_reject`, `C07_position_queries_reject_partial`, `C10_table_symmetric`, `C12_out_of_range_refuted`, `C12_random_covers_plane_partial`, `C12_random_on_plane_partial`, `C12_random_throws_partial`, `C12_wrapped_plane_partial`, `C12_xy_answer_partial`, `C12_xy_reach_iff_partial`, `C12_xy_safe_iff_partial`, `C12_xy_throws_refuted`, `C12_xy_unreachable_refuted`, `C15_absent_pair_refuted`, `C15_addRates_not_atomic_refuted`, `C15_add_existing_throws_partial`, `C15_added_is_found`, `C15_incoming_count_partial`, `C15_incoming_rates_partial`, `C15_lookups_faithful_partial`, `C15_outgoing_count_partial`, `C15_outgoing_rates_partial`, `C15_queries_pure_partial`, `C15_query_changes_answers_refuted`, `C16_hidden_sink_refuted`, `C16_phantom_source_refuted`, `C16_sinks_exact_partial`, `C16_sources_exact_partial`, `C21_before_update`, `C26_clusters_neat`, `C27_left_walker_partial`, `C27_removed_walker_remembered`, `C29_cluster_occupancy_unseen`, `C29_site_occupancy_partial`, `C30_exclusion`, `C31_hop_blocked`, `C31_occupied`, `C32_placement_partial`, `C33_one_visit`, `C33_other_walkers`, `C34_ids_not_reused`, `C34_label_partial`, `C34_one_cluster`, `C34_stay_together`, `C34_two_sites`, `C36_no_cluster_partial`, `C37_after_success`, `C37_back_off`, `C37_minimum`, `C37_waiting`, `C38_counts_agree_partial`, `C39_further_hop_undefined`, `C39_in_no_cluster`, `C39_stays_partial`, `C41_drains_agree_partial`, `C41_second_run_agrees_partial`, `C41_seeded_runs_agree_partial`, `C42_basin_search_any`, `C44_bad_walker_partial`, `C44_resolution_first_partial`, `C44_seed_first_partial`, `C44_walkers_after_sites_partial`, `C45_none_before`, `C45_registered`, `C47_any_order`, `C47_smallest`, `C47_survivor`, `C49_batch_add_refuted`, `C49_cluster_container`, `C49_site_container_partial`, `C49_smallest_query_refuted`, `C50_identity`, `C50_walker_dwell`, `C50_walker_potential`, `C50_walker_reserved_id`, `C50_walker_site`, `C56_queries_leave_simulation`, `C57_query_again_partial`, `C61_bookkeeping`, `C61_charges_left`, `C61_in_system`, `C64_placed`, `C64_returns`, `C64_too_many`, `C65_binary_unit_partial`, `C70_as_if_alone`, `C70_own_calls_partial`, `C70_untouched`, `C74_no_losses`, `C74_same_sites`, `C77_ids_are_names`, `C77_same_failures`, `C78_counters_bounded`, `C78_no_overflow`, `C78_visits_of_free_site`, `C85_cluster_never_occupied`, `C85_cluster_tally`, `C85_every_cluster_has_counts`, `C85_site_occupied_partial`, `C85_site_tally`, `C85_vacated_while_free_refuted`, `C86_cluster_ids_are_names`, `C87_among_others_partial`, `C88_bad_position`, `C88_by_position`, `C88_coordinates`, `C88_sites_of_distances`
* **`ClassicalDedekindReals.sig_forall_dec`, `ClassicalDedekindReals.sig_not_dec`, `FunctionalExtensionality.functional_extensionality_dep`**: `C13_detailed_balance`, `C14_rate_even_in_coupling`, `C14_rate_positive`, `C14_rate_shift_invariant`, `C14_rate_zero_without_coupling`, `C52_prefactor_documented`
* **`ClassicalDedekindReals.sig_forall_dec`, `ClassicalDedekindReals.sig_not_dec`, `Classical_Prop.classic`, `FunctionalExtensionality.functional_extensionality_dep`**: `C04_event_loop_monotone_exact`, `C08_fixed_distances_exact`, `C08_fixed_neighbors_exact`, `C08_neighbors_return`, `C08_neighbors_symmetric`, `C09_each_once_iff_partial`, `C09_nearest_image_listed`, `C09_neighbors_exact_set`, `C09_no_repetition_partial`, `C09_one_entry_per_image_partial`, `C10_entries_listed_partial`, `C10_not_smallest_refuted`, `C10_present_iff_partial`, `C10_table_any_partial`, `C10_table_exact_fixed_partial`, `C10_table_incomplete_refuted`, `C10_table_returns`, `C10_table_sound_partial`, `C11_answer_partial`, `C11_any_size_iff_partial`, `C11_any_size_partial`, `C11_distinct_at_zero_refuted`, `C11_overflow_refuted`, `C11_periodic_x_partial`, `C11_self_distance_refuted`, `C11_self_partial`, `C11_smallest_distance_partial`, `C11_smallest_iff_partial`, `C14_rate_decreases_away_from_peak`, `C14_rate_maximal_exactly_at_minus_lambda`, `C17_add_neighbour`, `C17_order_independent`, `C17_probabilities`, `C18_pick_interval_partial`, `C19_dwell_scales`, `C19_dwell_time`, `C20_probabilities_frozen_refuted`, `C20_rate_query_follows_partial`, `C20_reset_rereads_partial`, `C21_occupation_distribution`, `C22_solver_stops`, `C23_exit_picks`, `C23_internal_picks`, `C24_joined_site_refuted`, `C24_listed_probabilities_partial`, `C24_picks_frozen`, `C25_time_constant_partial`, `C25_time_constant_refuted`, `C26_next_answer`, `C26_stay_adds_up`, `C27_removed_walker_refuted`, `C28_update_succeeds_partial`, `C29_cluster_occupancy_refuted`, `C34_labels_of_valid_programs`, `C35_none_left_behind_partial`, `C38_valid_counts_partial`, `C40_half_partial`, `C40_new_cluster_partial`, `C41_drains_exact`, `C42_basin_rates`, `C43_threshold_refuted`, `C44_resolution_positive_partial`, `C45_probabilities`, `C45_returns`, `C46_clusters_can_be_left_partial`, `C46_dwell_times_partial`, `C48_hop_returns_partial`, `C48_removal_returns_partial`, `C48_simulation_runs_partial`, `C48_visits_return_partial`, `C51_every_hop`, `C51_only_in_equilibrium`, `C51_whenever_in_equilibrium`, `C53_large_cutoff_refuted`, `C53_negative_cutoff_refuted`, `C54_fixed_points`, `C54_settings_are_followed`, `C54_solver_result`, `C55_walkers_aim_along_rates`, `C55_walkers_move_along_rates`, `C58_plain_kmc`, `C59_detailed_balance`, `C59_every_site`, `C59_recipe`, `C59_valid_rates`, `C60_positive_dwell_times`, `C62_charges_left`, `C62_example_rates`, `C62_in_order`, `C62_runs`, `C62_sampling`, `C63_charge_balance`, `C63_last_sample`, `C63_one_sample`, `C64_rates_bounded`, `C64_whole_program`, `C65_any_run_partial`, `C65_other_unit_partial`, `C66_unclustered_visits_partial`, `C67_solver_converges`, `C68_entry_site_refuted`, `C68_exit_probabilities_partial`, `C69_mean_stay_partial`, `C69_too_long_refuted`, `C69_trap_refuted`, `C70_hop_returns`, `C71_balanced_partial`, `C71_boltzmann_partial`, `C71_time_shares_partial`, `C71_uneven_exits_refuted`, `C72_arrivals`, `C72_dwell_times`, `C72_goes_on`, `C72_hops`, `C72_total`, `C73_free_sites`, `C75_bounds`, `C76_exits`, `C76_inside`, `C76_leaves_partial`, `C76_leaves_refuted`, `C76_trapped`, `C83_neighbours_in_any_order_partial`, `C83_one_process_partial`, `C83_sites_in_another_order_refuted`
* **the primitive types and operations of `PrimFloat` and `PrimInt63` (no axiom about them)**: `C18_pick_minus_one_refuted`, `C28_unconnected_refuted`, `C32_clustered_refuted`, `C34_label_refuted`, `C35_left_behind_refuted`, `C36_long_run_refuted`, `C37_overflow_refuted`, `C38_left_behind_refuted`, `C39_basin_with_drain_refuted`, `C39_further_hop_refuted`, `C39_leaves_refuted`, `C40_merged_refuted`, `C41_drain_refuted`, `C41_second_run_refuted`, `C44_atomic_refuted`, `C46_whole_system_refuted`, `C48_self_rate_refuted`, `C57_earlier_queries_refuted`, `C63_every_sample_refuted`, `C66_clustered_visits_refuted`, `C70_ids_refuted`, `C77_shared_ids_refuted`
* **the primitive types and operations of `PrimFloat` and `PrimInt63` (no axiom about them)**: `C09_repeated_neighbor_refuted`
* **`ClassicalDedekindReals.sig_forall_dec`, `FunctionalExtensionality.functional_extensionality_dep`; the primitive types and operations of `PrimFloat` and `PrimInt63` (no axiom about them)**: `C84_no_event_is_refused`
* **`ltb_spec`, `mul_spec`; the primitive types and operations of `PrimFloat` and `PrimInt63` (no axiom about them)**: `C41_drains_in_doubles`
* **`ClassicalDedekindReals.sig_forall_dec`, `ClassicalDedekindReals.sig_not_dec`, `Classical_Prop.classic`, `FunctionalExtensionality.functional_extensionality_dep`, `abs_spec`, `eqb_spec`; the primitive types and operations of `PrimFloat` and `PrimInt63` (no axiom about them)**: `C81_log_exists`
* **`ClassicalDedekindReals.sig_forall_dec`, `ClassicalDedekindReals.sig_not_dec`, `Classical_Prop.classic`, `FunctionalExtensionality.functional_extensionality_dep`, `eqb_spec`, `ltb_spec`; the primitive types and operations of `PrimFloat` and `PrimInt63` (no axiom about them)**: `C01_order_laws_hold`
* **`ClassicalDedekindReals.sig_forall_dec`, `ClassicalDedekindReals.sig_not_dec`, `Classical_Prop.classic`, `FunctionalExtensionality.functional_extensionality_dep`, `abs_spec`, `add_spec`, `div_spec`, `eqb_spec`; the primitive types and operations of `PrimFloat` and `PrimInt63` (no axiom about them)**: `C79_time_constant_and_probabilities`
* **`ClassicalDedekindReals.sig_forall_dec`, `ClassicalDedekindReals.sig_not_dec`, `Classical_Prop.classic`, `FunctionalExtensionality.functional_extensionality_dep`, `abs_spec`, `add_spec`, `div_spec`, `eqb_spec`, `ltb_spec`, `mul_spec`, `sub_spec`; the primitive types and operations of `PrimFloat` and `PrimInt63` (no axiom about them)**: `C65_doubles_compute_alike`
* **`ClassicalDedekindReals.sig_forall_dec`, `ClassicalDedekindReals.sig_not_dec`, `Classical_Prop.classic`, `FunctionalExtensionality.functional_extensionality_dep`, `abs_spec`, `add_spec`, `div_spec`, `eqb_spec`, `ltb_spec`; the primitive types and operations of `PrimFloat` and `PrimInt63` (no axiom about them)**: `C80_picks`
* **`ClassicalDedekindReals.sig_forall_dec`, `ClassicalDedekindReals.sig_not_dec`, `Classical_Prop.classic`, `FunctionalExtensionality.functional_extensionality_dep`, `abs_spec`, `add_spec`, `div_spec`, `eqb_spec`, `mul_spec`; the primitive types and operations of `PrimFloat` and `PrimInt63` (no axiom about them)**: `C81_dwell_times`
* **`ClassicalDedekindReals.sig_forall_dec`, `ClassicalDedekindReals.sig_not_dec`, `Classical_Prop.classic`, `FunctionalExtensionality.functional_extensionality_dep`, `abs_spec`, `add_spec`, `div_spec`, `eqb_spec`, `ltb_spec`, `mul_spec`; the primitive types and operations of `PrimFloat` and `PrimInt63` (no axiom about them)**: `C82_free_sites`, `C84_plain_kmc_in_doubles`
* **`ClassicalDedekindReals.sig_forall_dec`, `ClassicalDedekindReals.sig_not_dec`, `Classical_Prop.classic`, `FunctionalExtensionality.functional_extensionality_dep`, `Uint63.add_spec`, `Uint63.eqb_correct`, `Uint63.eqb_refl`, `Uint63.leb_spec`, `Uint63.lor_spec`, `Uint63.lsl_spec`, `Uint63.lsr_spec`, `Uint63.ltb_spec`, `Uint63.of_to_Z`, `Uint63.sub_spec`, `of_uint63_spec`, `opp_spec`; the primitive types and operations of `PrimFloat` and `PrimInt63` (no axiom about them)**: `C38_ints_survive`
