{"id": "C01", "title": "Queue pops in time order", "statement": "Starting from an empty Queue, after any history of sortedAdd, sort and pop_current (and add, as long as sort is called before the next pop), pop_current returns an entry whose time is no later than that of every entry still queued.", "quantifier": "every finite history of queue operations and every choice of walker ids and comparable (non-NaN) times", "why_tests_cant": "the order has to hold after every interleaving of insertions and removals; tests exercise a handful of fixed sequences", "anchors": ["CoarseGrainSites/src/libmythical/queue.cpp: Queue::add, sortedAdd, pop_current, sort, isSorted, at", "CoarseGrainSites/include/mythical/queue.hpp: Queue"]}
{"id": "C02", "title": "isSorted() is truthful", "statement": "Whenever isSorted() returns true, reading at(0), at(1), ... gives times that never decrease.", "quantifier": "every history of add, sortedAdd, sort and pop_current", "why_tests_cant": "a flag that is only maintained by some of the operations can be wrong after an untested mix", "anchors": ["CoarseGrainSites/src/libmythical/queue.cpp: Queue::add, sortedAdd, pop_current, sort, isSorted, at", "CoarseGrainSites/include/mythical/queue.hpp: Queue"]}
{"id": "C03", "title": "Queue conserves walkers", "statement": "The entries in the Queue together with those already popped are exactly the entries added, with multiplicity; sortedAdd keeps entries with equal times in insertion order; with non-NaN times the only undefined behaviour is popping an empty Queue.", "quantifier": "every history of queue operations", "why_tests_cant": "loss or duplication could depend on ties, order and size", "anchors": ["CoarseGrainSites/src/libmythical/queue.cpp: Queue::add, sortedAdd, pop_current, sort, isSorted, at", "CoarseGrainSites/include/mythical/queue.hpp: Queue"]}
{"id": "C04", "title": "Event loop never goes back in time", "statement": "In the loop the examples use (pop the next walker, then sortedAdd it at popped time + dwell time, or drop it), the sequence of popped times never decreases.", "quantifier": "every initial sorted queue, every sequence of non-negative dwell times and drops, any number of steps", "why_tests_cant": "causality is a statement about unbounded executions", "anchors": ["CoarseGrainSites/src/libmythical/queue.cpp: Queue::add, sortedAdd, pop_current, sort, isSorted, at", "CoarseGrainSites/include/mythical/queue.hpp: Queue", "examples/ToF/ToF_example.cpp: main loop"]}
{"id": "C05", "title": "Lattice index and position are inverse", "statement": "For a lattice whose site count fits in an int, getIndex and getPosition are inverse bijections between 0..L*W*H-1 and the positions 0<=x<L, 0<=y<W, 0<=z<H; getX, getY and getZ agree with getPosition; no integer overflow occurs.", "quantifier": "every length, width, height with product below 2^31, every index and position", "why_tests_cant": "the index space is far too large to enumerate for every shape", "anchors": ["CoarseGrainSites/src/libmythical/charge_transport/cuboid_lattice.cpp: Cuboid", "CoarseGrainSites/include/mythical/charge_transport/cuboid_lattice.hpp: Cuboid"]}
{"id": "C06", "title": "getIndex is total and in range", "statement": "getIndex(x,y,z) throws exactly when some Fixed coordinate is out of range, and otherwise returns an index in 0..total-1; in Periodic directions coordinates that differ by a multiple of the size give the same index.", "quantifier": "every lattice, every boundary setting, every integer coordinate", "why_tests_cant": "wrapping is only tested one period away from the origin", "anchors": ["CoarseGrainSites/src/libmythical/charge_transport/cuboid_lattice.cpp: Cuboid", "CoarseGrainSites/include/mythical/charge_transport/cuboid_lattice.hpp: Cuboid"]}
{"id": "C07", "title": "Out-of-range indices are rejected", "statement": "getPosition, getX, getY, getZ, getNeighbors, getNeighborDistances and getSmallestDistance throw for an index that is not in 0..total-1.", "quantifier": "every lattice and every integer index", "why_tests_cant": "tests try the first index past the end, not negative ones on every entry point", "anchors": ["CoarseGrainSites/src/libmythical/charge_transport/cuboid_lattice.cpp: Cuboid", "CoarseGrainSites/include/mythical/charge_transport/cuboid_lattice.hpp: Cuboid"]}
{"id": "C08", "title": "Neighbour lists of fixed lattices are exact", "statement": "On a lattice with Fixed boundaries getNeighbors(i, cutoff) lists, without repetition and without i itself, exactly the sites whose Euclidean distance to i is at most the cutoff; hence the relation is symmetric; getNeighborDistances(i, cutoff) lists the same sites with their distances.", "quantifier": "every lattice, positive spacing and index, and every cutoff for which the call returns (it returns for every cutoff from 0 up to 646 spacings)", "why_tests_cant": "neighbour sets depend on shape, spacing and cutoff together", "anchors": ["CoarseGrainSites/src/libmythical/charge_transport/cuboid_lattice.cpp: Cuboid", "CoarseGrainSites/include/mythical/charge_transport/cuboid_lattice.hpp: Cuboid"]}
{"id": "C09", "title": "Neighbour lists of periodic lattices", "statement": "On a lattice with Periodic directions getNeighbors(i, cutoff) lists exactly the sites that have a periodic image within the cutoff of i, each once, never i itself.", "quantifier": "every lattice, boundary combination, spacing, cutoff and index", "why_tests_cant": "duplicates only show up when the cutoff box wraps onto itself", "anchors": ["CoarseGrainSites/src/libmythical/charge_transport/cuboid_lattice.cpp: Cuboid", "CoarseGrainSites/include/mythical/charge_transport/cuboid_lattice.hpp: Cuboid"]}
{"id": "C10", "title": "Whole-lattice distance table is complete", "statement": "getNeighborDistances(cutoff) contains an entry for (i,j), with their smallest distance, if and only if i and j are distinct sites within the cutoff; the table is symmetric.", "quantifier": "every lattice, boundary setting and cutoff", "why_tests_cant": "missing pairs depend on the direction of the offset", "anchors": ["CoarseGrainSites/src/libmythical/charge_transport/cuboid_lattice.cpp: Cuboid", "CoarseGrainSites/include/mythical/charge_transport/cuboid_lattice.hpp: Cuboid"]}
{"id": "C11", "title": "getSmallestDistance is the minimum-image distance", "statement": "getSmallestDistance(i,j) is the smallest Euclidean distance between i and any periodic image of j; in particular it is 0 for i=j, symmetric, and never larger than the direct distance.", "quantifier": "every lattice, boundary setting and pair of indices", "why_tests_cant": "unit tests start from coordinate 0, where the formula happens to agree", "anchors": ["CoarseGrainSites/src/libmythical/charge_transport/cuboid_lattice.cpp: Cuboid", "CoarseGrainSites/include/mythical/charge_transport/cuboid_lattice.hpp: Cuboid"]}
{"id": "C12", "title": "getRandomSite stays on the requested plane", "statement": "getRandomSite(plane, k) returns a site of the requested plane for every 0<=k<size, every site of the plane can be returned, it throws for k out of range, and never throws otherwise.", "quantifier": "every lattice, plane, plane index and outcome of the random number generator", "why_tests_cant": "depends on all generator outcomes and on the lattice not being a cube", "anchors": ["CoarseGrainSites/src/libmythical/charge_transport/cuboid_lattice.cpp: Cuboid", "CoarseGrainSites/include/mythical/charge_transport/cuboid_lattice.hpp: Cuboid"]}
{"id": "C13", "title": "Marcus rates obey detailed balance", "statement": "getRate(Ei,Ej,H) = getRate(Ej,Ei,H) * exp(-(Ej-Ei)/(kB*T)).", "quantifier": "all real energies and couplings, all positive reorganisation energies and temperatures", "why_tests_cant": "an identity over real parameters", "anchors": ["CoarseGrainSites/src/libmythical/charge_transport/marcus.cpp: Marcus::getRate", "CoarseGrainSites/include/mythical/charge_transport/marcus.hpp: Marcus"]}
{"id": "C14", "title": "Marcus rates are usable hop rates", "statement": "For H different from 0 the rate is strictly positive (so accepted by initializeSystem), it is 0 when H is 0, it does not depend on the sign of H or on a common energy shift, it is largest exactly at Ej-Ei = -lambda, and it decreases monotonically away from that point (inverted region).", "quantifier": "all real parameters", "why_tests_cant": "monotonicity and maxima range over a continuum", "anchors": ["CoarseGrainSites/src/libmythical/charge_transport/marcus.cpp: Marcus::getRate", "CoarseGrainSites/include/mythical/charge_transport/marcus.hpp: Marcus"]}
{"id": "C15", "title": "Rate lookups are faithful", "statement": "getRate(i,j) returns the pointer added for (i,j) and throws if none was added; queries (getRate, incomingRateCount, outgoingRateCount, getIncomingRates, getOutgoingRates, getSourceSiteIds, getSinkSiteIds) never change what later queries return; adding an existing pair throws and changes nothing.", "quantifier": "every history of additions and queries", "why_tests_cant": "needs repeated queries of absent entries in every order", "anchors": ["CoarseGrainSites/src/libmythical/rate_container.cpp: Rate_Container", "CoarseGrainSites/src/libmythical/rate_container.hpp"]}
{"id": "C16", "title": "Source and sink sites are classified exactly", "statement": "getSourceSiteIds lists exactly the sites with an outgoing and no incoming rate, getSinkSiteIds exactly those with an incoming and no outgoing rate, each once.", "quantifier": "every history of addRate/addRates calls and queries", "why_tests_cant": "graph shapes and histories are unbounded", "anchors": ["CoarseGrainSites/src/libmythical/rate_container.cpp: Rate_Container", "CoarseGrainSites/src/libmythical/rate_container.hpp"]}
{"id": "C17", "title": "Site hop probabilities form a distribution", "statement": "After setRatesToNeighbors with positive rates, getProbabilitiesAndIdsOfNeighbors lists every neighbour exactly once with probability rate / sum of rates; the probabilities are positive and sum to 1; the time constant is 1 / sum of rates; the result does not depend on the iteration order of the map.", "quantifier": "every non-empty map of positive rates and every hash-table order", "why_tests_cant": "the comparator truncates probabilities to int, so losing neighbours is a matter of values and order", "anchors": ["CoarseGrainSites/src/libmythical/topologyfeatures/site.cpp: Site", "CoarseGrainSites/src/libmythical/topologyfeatures/site.hpp", "CoarseGrainSites/src/libmythical/topologyfeatures/topology_feature.cpp: TopologyFeature"]}
{"id": "C18", "title": "Site picks a neighbour with the right probability", "statement": "For every random number u in [0,1), pickNewSiteId returns a neighbour (never -1), and the set of u that yields neighbour j is an interval of length rate_j / sum of rates.", "quantifier": "every rate map and every u in [0,1)", "why_tests_cant": "a continuum of draws; rounding near 1", "anchors": ["CoarseGrainSites/src/libmythical/topologyfeatures/site.cpp: Site", "CoarseGrainSites/src/libmythical/topologyfeatures/site.hpp", "CoarseGrainSites/src/libmythical/topologyfeatures/topology_feature.cpp: TopologyFeature"]}
{"id": "C19", "title": "Site dwell times", "statement": "getDwellTime is strictly positive for u in (0,1), equals -ln(u)/sum of rates, decreases when u grows and scales inversely with the rates.", "quantifier": "every rate map and draw", "why_tests_cant": "continuum of draws", "anchors": ["CoarseGrainSites/src/libmythical/topologyfeatures/site.cpp: Site", "CoarseGrainSites/src/libmythical/topologyfeatures/site.hpp", "CoarseGrainSites/src/libmythical/topologyfeatures/topology_feature.cpp: TopologyFeature"]}
{"id": "C20", "title": "Hop probabilities follow the current rates", "statement": "If the user changes a rate in the map passed to initializeSystem, getRateToNeighbor and the hop probabilities and dwell times both follow the new value.", "quantifier": "every site, every sequence of rate changes and hops", "why_tests_cant": "requires comparing cached against live values over histories", "anchors": ["CoarseGrainSites/src/libmythical/topologyfeatures/site.cpp: Site", "CoarseGrainSites/src/libmythical/topologyfeatures/site.hpp", "CoarseGrainSites/src/libmythical/topologyfeatures/topology_feature.cpp: TopologyFeature", "CoarseGrainSites/include/mythical/coarsegrainsystem.hpp: initializeSystem doc"]}
{"id": "C21", "title": "Cluster occupation probabilities form a distribution", "statement": "After updateProbabilitiesAndTimeConstant the occupation probabilities of the cluster's sites are positive and sum to 1, for each convergence method and any number of iterations.", "quantifier": "every cluster of two or more sites with mutual positive rates, every iteration count or tolerance", "why_tests_cant": "iteration counts and cluster sizes are unbounded", "anchors": ["CoarseGrainSites/src/libmythical/topologyfeatures/cluster.cpp: Cluster", "CoarseGrainSites/src/libmythical/topologyfeatures/cluster.hpp", "Cluster::iterate_, solveMasterEquation_"]}
{"id": "C22", "title": "The master-equation solver terminates", "statement": "With converge_by_tolerance and a positive tolerance updateProbabilitiesAndTimeConstant terminates.", "quantifier": "every connected cluster with mutual positive rates and every tolerance > 0", "why_tests_cant": "a while loop with a data-dependent exit needs a convergence proof", "anchors": ["CoarseGrainSites/src/libmythical/topologyfeatures/cluster.cpp: Cluster", "CoarseGrainSites/src/libmythical/topologyfeatures/cluster.hpp", "Cluster::solveMasterEquation_"]}
{"id": "C23", "title": "Cluster hop tables are distributions", "statement": "For a freshly updated cluster, the internal hop table covers exactly the cluster's sites and the exit table exactly the outside neighbours, both with probabilities that sum to 1, so for every u in [0,1) the internal pick is a member and the exit pick a non-member neighbour, chosen with the listed probability.", "quantifier": "every cluster with at least one exit and every draw", "why_tests_cant": "continuum of draws and unbounded clusters", "anchors": ["CoarseGrainSites/src/libmythical/topologyfeatures/cluster.cpp: Cluster", "CoarseGrainSites/src/libmythical/topologyfeatures/cluster.hpp", "calculateProbabilityHopToInternalSite_, calculateProbabilityHopToNeighbors_, pickInternalSite_, pickClusterNeighbor_"]}
{"id": "C24", "title": "Hop tables follow the membership", "statement": "After sites are added or another cluster is merged and the cluster is updated, picks follow the distribution of the enlarged cluster: every member can be picked internally and every exit pick lies outside the cluster.", "quantifier": "every sequence of additions, merges and updates", "why_tests_cant": "only visible after a second update", "anchors": ["CoarseGrainSites/src/libmythical/topologyfeatures/cluster.cpp: Cluster", "CoarseGrainSites/src/libmythical/topologyfeatures/cluster.hpp", "migrateSitesFrom, updateProbabilitiesAndTimeConstant"]}
{"id": "C25", "title": "Escape time constant of a cluster", "statement": "The cluster's time constant is the mean over member sites of 1/(rate off the cluster), weighted with a probability distribution (hop-off probabilities that sum to 1), so it lies between the smallest and largest 1/(rate off).", "quantifier": "every cluster with at least one exit", "why_tests_cant": "needs exact algebra over arbitrary rates", "anchors": ["CoarseGrainSites/src/libmythical/topologyfeatures/cluster.cpp: Cluster", "CoarseGrainSites/src/libmythical/topologyfeatures/cluster.hpp", "calculateProbabilityHopOffInternalSite_, calculateProbabilityHopBetweenInternalSite_, calculateEscapeTimeConstant_"]}
{"id": "C26", "title": "Time spent in a cluster adds up", "statement": "For one stay of a walker in a cluster the dwell times returned by getDwellTime add up to exactly the escape time sampled on entry, each is positive and at most the time increment, pickNewSiteId stays inside until the sampled time is used up and then leaves; a stay takes ceil(T/increment) steps.", "quantifier": "every sampled time T > 0, increment > 0, and any interleaving with other walkers", "why_tests_cant": "number of steps is unbounded and walkers interleave", "anchors": ["CoarseGrainSites/src/libmythical/topologyfeatures/cluster.cpp: Cluster", "CoarseGrainSites/src/libmythical/topologyfeatures/cluster.hpp", "getDwellTime, pickNewSiteId, hopWithinCluster_"]}
{"id": "C27", "title": "Removing a walker forgets it", "statement": "After a walker is removed from a cluster no information about it remains: a walker that later enters with the same id samples a fresh escape time.", "quantifier": "every cluster state, walker id and remaining time", "why_tests_cant": "needs id reuse after removal at any time", "anchors": ["CoarseGrainSites/src/libmythical/topologyfeatures/cluster.cpp: Cluster", "CoarseGrainSites/src/libmythical/topologyfeatures/cluster.hpp", "TopologyFeature::removeWalker, removeWalkerCluster_, Cluster::Cluster"]}
{"id": "C28", "title": "Cluster updates do not abort", "statement": "updateProbabilitiesAndTimeConstant succeeds on every cluster of at least two sites in which every internal rate has a reverse rate and at least one exit exists.", "quantifier": "every set of sites and rates", "why_tests_cant": "precondition is relational over all pairs", "anchors": ["CoarseGrainSites/src/libmythical/topologyfeatures/cluster.cpp: Cluster", "CoarseGrainSites/src/libmythical/topologyfeatures/cluster.hpp", "Cluster::iterate_, Site::getProbabilityOfHoppingToNeighboringSite"]}
{"id": "C29", "title": "Cluster occupancy is truthful", "statement": "isOccupied(site) on a cluster is true exactly when a walker was put on the site and not removed since; isOccupied() is true exactly when some member site is occupied.", "quantifier": "every history of occupy/vacate calls per site", "why_tests_cant": "counter drift depends on the history", "anchors": ["CoarseGrainSites/src/libmythical/topologyfeatures/cluster.cpp: Cluster", "CoarseGrainSites/src/libmythical/topologyfeatures/cluster.hpp", "occupyCluster_, vacateCluster_, isOccupiedCluster_"]}
{"id": "C30", "title": "Exclusion: two walkers never share a site", "statement": "If walkers are initialised on distinct unclustered sites, then after any sequence of hop and removeWalkerFromSystem calls that does not abort, including those that create and merge clusters, no two walkers in the system occupy the same site.", "quantifier": "every rate map, every number of walkers, every schedule of hops and removals, every random stream, every hash order, every floating-point outcome", "why_tests_cant": "interleavings of walkers with cluster creation are unbounded", "anchors": ["CoarseGrainSites/src/libmythical/coarsegrainsystem.cpp: CoarseGrainSystem", "CoarseGrainSites/include/mythical/coarsegrainsystem.hpp: CoarseGrainSystem", "hop, removeWalkerFromSystem, initializeWalkers"]}
{"id": "C31", "title": "A hop is blocked exactly by another walker", "statement": "hop moves the walker to its potential site if no other walker is there, and leaves it in place otherwise; after any such history, the potential site counts as occupied exactly when some walker (possibly itself) is on it.", "quantifier": "as for exclusion", "why_tests_cant": "as for exclusion", "anchors": ["CoarseGrainSites/src/libmythical/coarsegrainsystem.cpp: CoarseGrainSystem", "CoarseGrainSites/include/mythical/coarsegrainsystem.hpp: CoarseGrainSystem", "hop"]}
{"id": "C32", "title": "Walkers can be placed at any time", "statement": "Initialising a walker on a free site reserves that site, whether or not coarse graining has already happened, so exclusion keeps holding.", "quantifier": "every state reachable by hops and cluster formation", "why_tests_cant": "needs placement after cluster formation", "anchors": ["CoarseGrainSites/src/libmythical/coarsegrainsystem.cpp: CoarseGrainSystem", "CoarseGrainSites/include/mythical/coarsegrainsystem.hpp: CoarseGrainSystem", "initializeWalkers"]}
{"id": "C33", "title": "hop only touches its own walker and counts one visit", "statement": "hop leaves all other walkers unchanged, and without coarse graining it increases the visit frequency of exactly the site the walker ends up on, by one.", "quantifier": "every state and walker", "why_tests_cant": "frame conditions range over all the other walkers and sites", "anchors": ["CoarseGrainSites/src/libmythical/coarsegrainsystem.cpp: CoarseGrainSystem", "CoarseGrainSites/include/mythical/coarsegrainsystem.hpp: CoarseGrainSystem", "hop, getVisitFrequencyOfSite"]}
{"id": "C34", "title": "Clusters are consistent", "statement": "At any time: every site is in at most one cluster; getClusterIdOfSite(s)=c exactly when s is listed under c in getClusters; every listed cluster has at least two sites; cluster ids are never reused; two sites in one cluster stay in one cluster.", "quantifier": "every history of hops that does not abort", "why_tests_cant": "merging is only tested on one topology", "anchors": ["CoarseGrainSites/src/libmythical/coarsegrainsystem.cpp: CoarseGrainSystem", "CoarseGrainSites/include/mythical/coarsegrainsystem.hpp: CoarseGrainSystem", "createCluster_, mergeSitesAndClusters_, getClusters, getClusterIdOfSite"]}
{"id": "C35", "title": "Merging never leaves a site behind", "statement": "When sites and clusters are merged, every site of an absorbed cluster belongs to the surviving cluster, can be queried, and hopping from or to it is well defined.", "quantifier": "every history of coarse-graining attempts", "why_tests_cant": "depends on which sites the basin search returns", "anchors": ["CoarseGrainSites/src/libmythical/coarsegrainsystem.cpp: CoarseGrainSystem", "CoarseGrainSites/include/mythical/coarsegrainsystem.hpp: CoarseGrainSystem", "mergeSitesAndClusters_, sitesSatisfyEquilibriumCondition_"]}
{"id": "C36", "title": "Coarse graining can be switched off", "statement": "After setMinCoarseGrainIterationThreshold(inf_iterations) no cluster is ever created however long the simulation runs, and hop keeps working.", "quantifier": "any number of hops", "why_tests_cant": "unbounded run length", "anchors": ["CoarseGrainSites/src/libmythical/coarsegrainsystem.cpp: CoarseGrainSystem", "CoarseGrainSites/include/mythical/coarsegrainsystem.hpp: CoarseGrainSystem", "hop, setMinCoarseGrainIterationThreshold", "CoarseGrainSites/include/mythical/constants.hpp: inf_iterations"]}
{"id": "C37", "title": "Coarse-graining attempts back off", "statement": "The number of hops between two coarse-graining attempts is the minimum threshold after a success and doubles after each failure; the bookkeeping never overflows.", "quantifier": "any number of hops, any sequence of successes and failures, any threshold", "why_tests_cant": "overflow needs billions of hops", "anchors": ["CoarseGrainSites/src/libmythical/coarsegrainsystem.cpp: CoarseGrainSystem", "CoarseGrainSites/include/mythical/coarsegrainsystem.hpp: CoarseGrainSystem", "hop: iteration_, iteration_threshold_"]}
{"id": "C38", "title": "Coarse graining does not change visit counts", "statement": "Creating or merging clusters leaves getVisitFrequencyOfSite unchanged for every site.", "quantifier": "every state in which a cluster is created or merged", "why_tests_cant": "involves rounding and caches in all clusters", "anchors": ["CoarseGrainSites/src/libmythical/coarsegrainsystem.cpp: CoarseGrainSystem", "CoarseGrainSites/include/mythical/coarsegrainsystem.hpp: CoarseGrainSystem", "getVisitFrequencyOfSite", "CoarseGrainSites/src/libmythical/topologyfeatures/cluster.cpp: getVisitFrequency, setVisitFrequency, migrateSitesFrom"]}
{"id": "C39", "title": "Drain sites end a walk safely", "statement": "A walker that reaches a site without outgoing rates stays there; a further hop call is harmless.", "quantifier": "every rate map with drain sites", "why_tests_cant": "needs runs that reach drains", "anchors": ["CoarseGrainSites/src/libmythical/coarsegrainsystem.cpp: CoarseGrainSystem", "CoarseGrainSites/include/mythical/coarsegrainsystem.hpp: CoarseGrainSystem", "initializeSystem: drain_sites, hop", "CoarseGrainSites/src/libmythical/topologyfeatures/site.cpp: pickNewSiteId"]}
{"id": "C40", "title": "Time increments respect the time resolution", "statement": "The time increment reported for a cluster never exceeds the time resolution, and is at most half the cluster's time constant.", "quantifier": "every cluster created or merged in any history", "why_tests_cant": "merges change the time constant but not the resolution", "anchors": ["CoarseGrainSites/src/libmythical/coarsegrainsystem.cpp: CoarseGrainSystem", "CoarseGrainSites/include/mythical/coarsegrainsystem.hpp: CoarseGrainSystem", "createCluster_, mergeSitesAndClusters_, getTimeIncrementOfClusters"]}
{"id": "C41", "title": "Seeded runs are reproducible", "statement": "After setRandomSeed two runs with the same inputs produce the same sites, dwell times and clusters, whatever the clock returns.", "quantifier": "every input, every schedule, every clock", "why_tests_cant": "compares pairs of executions", "anchors": ["CoarseGrainSites/src/libmythical/coarsegrainsystem.cpp: CoarseGrainSystem", "CoarseGrainSites/include/mythical/coarsegrainsystem.hpp: CoarseGrainSystem", "setRandomSeed, initializeSystem, createCluster_", "CoarseGrainSites/src/libmythical/topologyfeatures/topology_feature.cpp: TopologyFeature::TopologyFeature"]}
{"id": "C42", "title": "Basin search is well behaved", "statement": "findBasin terminates; its result is either empty or a duplicate-free list of at most max_exploration_count (>= 1) sites that contains the start site and in which every site is reachable from the start inside the list along rates at least (almost) as fast as the slowest accepted one.", "quantifier": "every rate map, cluster state, start site and tie-breaking order", "why_tests_cant": "search order and graph are unbounded", "anchors": ["CoarseGrainSites/src/libmythical/basin_explorer.cpp: BasinExplorer::findBasin, addEdges_, rateFastEnough_", "CoarseGrainSites/src/libmythical/graph_library_adapter.hpp"]}
{"id": "C43", "title": "The basin threshold setting has an effect", "statement": "setThreshold changes which edges findBasin accepts.", "quantifier": "all positive rates and all thresholds >= 0", "why_tests_cant": "needs proof over all rates that the test can never fire", "anchors": ["CoarseGrainSites/src/libmythical/basin_explorer.cpp: BasinExplorer::findBasin, addEdges_, rateFastEnough_", "CoarseGrainSites/src/libmythical/graph_library_adapter.hpp"]}
{"id": "C44", "title": "Initialisation errors", "statement": "initializeSystem throws unless setTimeResolution succeeded before; setTimeResolution rejects values <= 0; initializeWalkers throws before initializeSystem, for unplaced walkers and for unknown sites; setRandomSeed throws after initializeSystem; a call that throws changes nothing.", "quantifier": "every order of configuration calls", "why_tests_cant": "protocol histories are unbounded", "anchors": ["CoarseGrainSites/src/libmythical/coarsegrainsystem.cpp: CoarseGrainSystem", "CoarseGrainSites/include/mythical/coarsegrainsystem.hpp: CoarseGrainSystem", "initializeSystem, initializeWalkers, setTimeResolution, setRandomSeed"]}
{"id": "C45", "title": "initializeSystem registers exactly the sites of the rate map", "statement": "After initializeSystem the known sites are exactly the keys and targets of the rate map; all are unoccupied, unclustered, unvisited, and keys have hop probabilities proportional to their rates.", "quantifier": "every rate map", "why_tests_cant": "rate maps are unbounded", "anchors": ["CoarseGrainSites/src/libmythical/coarsegrainsystem.cpp: CoarseGrainSystem", "CoarseGrainSites/include/mythical/coarsegrainsystem.hpp: CoarseGrainSystem", "initializeSystem"]}
{"id": "C46", "title": "Every cluster can be left", "statement": "Every cluster created or merged by the system has at least two sites and at least one rate leading out, so its time constant is defined and positive and dwell times can be drawn.", "quantifier": "every history with static positive rates", "why_tests_cant": "needs an invariant over merges", "anchors": ["CoarseGrainSites/src/libmythical/coarsegrainsystem.cpp: CoarseGrainSystem", "CoarseGrainSites/include/mythical/coarsegrainsystem.hpp: CoarseGrainSystem", "sitesSatisfyEquilibriumCondition_, getTimeConstantFromSitesToNeighbors_"]}
{"id": "C47", "title": "Surviving cluster id", "statement": "When clusters are merged the surviving id is the smallest of the ids involved, independent of iteration order.", "quantifier": "every map from sites to cluster ids", "why_tests_cant": "order independence over all hash orders", "anchors": ["CoarseGrainSites/src/libmythical/coarsegrainsystem.cpp: CoarseGrainSystem", "CoarseGrainSites/include/mythical/coarsegrainsystem.hpp: CoarseGrainSystem", "getFavoredClusterId, countUniqueClusters", "CoarseGrainSites/src/libmythical/site_container.cpp: getSmallestClusterId"]}
{"id": "C48", "title": "Running a valid simulation never crashes", "statement": "With mutual positive rates that are not changed, distinct start sites, draws in (0,1), a performance ratio of at least 1/2 and a bounded number of hops, every hop and removal returns normally: no exception, assertion failure or undefined behaviour.", "quantifier": "every such system, schedule and random stream, any number of hops below the int limit", "why_tests_cant": "needs the whole state invariant", "anchors": ["CoarseGrainSites/src/libmythical/coarsegrainsystem.cpp: CoarseGrainSystem", "CoarseGrainSites/include/mythical/coarsegrainsystem.hpp: CoarseGrainSystem", "hop, removeWalkerFromSystem"]}
{"id": "C49", "title": "Containers behave as maps", "statement": "Site_Container and Cluster_Container behave as finite maps: adding an existing id throws and changes nothing, lookups of absent ids throw, queries do not change the contents.", "quantifier": "every history of container operations", "why_tests_cant": "operator[] inserts silently on some paths", "anchors": ["CoarseGrainSites/src/libmythical/site_container.cpp", "CoarseGrainSites/src/libmythical/cluster_container.cpp"]}
{"id": "C50", "title": "Walkers and ids report what was set", "statement": "A Walker reports the last site it was given (any id except the reserved constants::unassignedId, which counts as none) and throws if none was given; likewise for the potential site; getDwellTime reports the last dwell time set (-1 before); getId throws unless an id was set and otherwise reports the last one.", "quantifier": "every history of setter calls", "why_tests_cant": "sentinel values collide with legal ints", "anchors": ["CoarseGrainSites/src/libmythical/walker.cpp", "CoarseGrainSites/include/mythical/walker.hpp", "CoarseGrainSites/src/libmythical/identity.hpp"]}
{"id": "C51", "title": "Coarse graining is only done in local equilibrium", "statement": "A cluster is created or merged from a set of sites only if the mean time to leave the set exceeds twice the performance ratio times the longest shortest crossing time inside it, and twice that crossing time is below the time resolution.", "quantifier": "every state and start site", "why_tests_cant": "needs all graphs", "anchors": ["CoarseGrainSites/src/libmythical/coarsegrainsystem.cpp: CoarseGrainSystem", "CoarseGrainSites/include/mythical/coarsegrainsystem.hpp: CoarseGrainSystem", "coarseGrain_, sitesSatisfyEquilibriumCondition_, getInternalTimeLimit_"]}
{"id": "C52", "title": "Marcus prefactor matches its documentation", "statement": "The prefactor computed from the rounded constants equals 2*pi/h_bar/sqrt(4*pi*k_B*T) up to a relative error of 1e-9, for every temperature; it does not depend on the reorganisation energy.", "quantifier": "every T > 0 and every reorganisation energy", "why_tests_cant": "constants and their separately written square roots could be inconsistent at any temperature", "anchors": ["CoarseGrainSites/src/libmythical/charge_transport/marcus.cpp: Marcus::Marcus", "CoarseGrainSites/include/mythical/constants.hpp"]}
{"id": "C53", "title": "Neighbour queries accept every cutoff", "statement": "getNeighbors and getNeighborDistances return for every index of the lattice and every finite cutoff: a cutoff below one spacing (including a negative one) gives an empty list, and a large cutoff gives all sites within reach.", "quantifier": "every lattice, positive spacing, index and finite cutoff", "why_tests_cant": "The tests use cutoffs of a few spacings; the failure needs a cutoff of several hundred spacings, where an internal size computation overflows int, or a negative one.", "anchors": ["CoarseGrainSites/src/libmythical/charge_transport/cuboid_lattice.cpp:101-154", "CoarseGrainSites/src/libmythical/charge_transport/cuboid_lattice.cpp:368-421"]}
{"id": "C54", "title": "The solver computes the relaxation it promises", "statement": "After updateProbabilitiesAndTimeConstant the occupation probabilities are those of the uniform distribution after n relaxation steps (the mean of the old distribution and the normalised inflow): n is the iteration count per cluster, the count times the number of sites per site, or with a tolerance the first step that changes the distribution by no more than the tolerance. A distribution that no longer changes is quasi-stationary.", "quantifier": "every cluster with mutual positive rates in which every member has an internal rate, every method, iteration count and tolerance", "why_tests_cant": "the number of steps is unbounded and depends on the rates", "anchors": ["CoarseGrainSites/src/libmythical/topologyfeatures/cluster.cpp:325-407"]}
{"id": "C55", "title": "Walkers only follow rates", "statement": "In a valid simulation the potential site of every walker is a site to which a rate leads from its current site or, if the current site is in a cluster, a site of that cluster or one to which a rate leads from a site of the cluster; a hop leaves the walker where it is or moves it to such a site.", "quantifier": "every system with mutual unchanged positive rates and no self rates, every schedule and stream of draws in (0,1), performance ratio at least 1/2, hops below the int limit", "why_tests_cant": "depends on cumulative tables of all sites and clusters through every merge", "anchors": ["CoarseGrainSites/src/libmythical/coarsegrainsystem.cpp: initializeWalkers, hop", "CoarseGrainSites/src/libmythical/topologyfeatures/site.cpp: pickNewSiteId", "CoarseGrainSites/src/libmythical/topologyfeatures/cluster.cpp: pickNewSiteId"]}
{"id": "C56", "title": "Asking for visit counts does not disturb a simulation", "statement": "Two programs that make the same calls, apart from calls of getVisitFrequencyOfSite anywhere in between, and that both run to the end leave the same walkers in the system, on the same sites with the same potential sites and dwell times, and report the same clusters, cluster ids of sites, resolutions and time increments.", "quantifier": "every pair of programs, any number of queries at any place, every arithmetic, seed, stream of draws and clock", "why_tests_cant": "a query writes to the cluster it asks (it spreads the counted hops over the sites); that none of this reaches hops, merges and draws concerns every program", "anchors": ["CoarseGrainSites/src/libmythical/coarsegrainsystem.cpp: getVisitFrequencyOfSite", "CoarseGrainSites/src/libmythical/topologyfeatures/cluster.cpp: getVisitFrequency"]}
{"id": "C57", "title": "Visit counts do not depend on when they are asked for", "statement": "The number getVisitFrequencyOfSite reports for a site does not depend on which calls of getVisitFrequencyOfSite were made before, for this or other sites.", "quantifier": "every program and every set of queries", "why_tests_cant": "depends on the whole history of queries", "anchors": ["CoarseGrainSites/src/libmythical/coarsegrainsystem.cpp: getVisitFrequencyOfSite", "CoarseGrainSites/src/libmythical/topologyfeatures/cluster.cpp: getVisitFrequency"]}
{"id": "C58", "title": "Until clusters are first searched for, the simulation is plain kinetic Monte Carlo", "statement": "If every target of a rate is itself a key of the rate map, then up to the hop at which clusters are first searched for initializeSystem, initializeWalkers, hop and removeWalkerFromSystem carry out kinetic Monte Carlo with exclusion: a walker that comes to a site gets the dwell time -ln u / (sum of the rates of the site) and a potential site chosen in proportion to the rates, with u and the choice taken from the next two numbers of the random stream of that site; a hop moves it to that site if it is free, otherwise it stays and draws again; visit counts count the arrivals and stays, a site is occupied exactly if a walker is on it, and no cluster is reported. With setRandomSeed(s) the i-th site of the map has the stream seeded with s+i. Clusters are first searched for after as many hops as setMinCoarseGrainIterationThreshold was given, after 1000 hops if it was not called; with inf_iterations this holds for 2^31-1 hops.", "quantifier": "every rate map, every threshold or none, every seed, clock and random engine with values in (0,1), and every sequence of entries, hops and removals", "why_tests_cant": "arbitrarily long interleavings of walkers on arbitrary networks; a test compares only a few hops of one network", "anchors": ["CoarseGrainSites/src/libmythical/coarsegrainsystem.cpp: initializeSystem, initializeWalkers, hop, removeWalkerFromSystem", "CoarseGrainSites/src/libmythical/topologyfeatures/site.cpp: getDwellTime, pickNewSiteId", "CoarseGrainSites/src/libmythical/topologyfeatures/topology_feature.cpp: occupy, vacate"]}
{"id": "C59", "title": "The time of flight example gives the system consistent rates", "statement": "calculateRates of the time of flight example returns a map with a rate for exactly those ordered pairs of sites that getNeighborDistances(cutoff) reports. The rate from i to j is the Marcus rate for the energy difference E_j - E_i - charge*field*(x_j - x_i)*spacing and the coupling A*exp(-alpha*distance); forward and backward rates are in detailed balance with that difference. All rates are positive, every rate has a rate back, no site has a rate to itself, and if the cutoff is at least the lattice spacing and the lattice has two sites or more then every site has a rate. So the map can be handed to initializeSystem.", "quantifier": "every lattice size and boundary setting, every vector of site energies of the right length, every cutoff, reorganisation energy, temperature, coupling, decay, field and charge", "why_tests_cant": "the map is built by overwriting entries in the iteration order of two nested hash maps, for arbitrary lattices and energies; the example prints nothing about it", "anchors": ["examples/ToF/ToF_example.cpp: calculateRates", "CoarseGrainSites/src/libmythical/charge_transport/cuboid_lattice.cpp: getNeighborDistances, getX", "CoarseGrainSites/src/libmythical/charge_transport/marcus.cpp: getRate"]}
{"id": "C60", "title": "Walkers in the system always have a positive finite dwell time", "statement": "After every call of a valid program, getDwellTime of every walker that has been entered with initializeWalkers and not removed since returns a positive finite number: also after hops inside, into and out of clusters, after clusters were formed or merged and after refused hops. So global times built by adding dwell times strictly increase and a queue of such times never holds infinities or NaN.", "quantifier": "every valid program (good rates within bounds lo..hi), of any length and number of walkers within the hop bound of C48", "why_tests_cant": "a dwell time is a product of a random logarithm and a time constant that is recomputed on each merge by an iterative solver; tests draw a few values for a few topologies", "anchors": ["CoarseGrainSites/src/libmythical/coarsegrainsystem.cpp: hop, initializeWalkers", "CoarseGrainSites/src/libmythical/topologyfeatures/cluster.cpp: getDwellTime", "CoarseGrainSites/src/libmythical/topologyfeatures/site.cpp: getDwellTime"]}
{"id": "C61", "title": "The time of flight example keeps queue, charge count and system in step", "statement": "At every step of the main loop of the time of flight example: a hole has one entry in the queue if and only if it has not yet reached the last plane of the lattice, and no entry otherwise; charges_remain is the number of entries; the walkers still in the coarse grained system are exactly the holes in the queue, and it was asked for one hop per entry taken from the queue, so no walker is hopped after it was removed and none is removed twice. The recorded numbers of remaining charges never increase and there is one for each recorded sample of the current.", "quantifier": "every number of steps, every lattice with at least two planes, every set of holes starting on distinct sites of the first plane, every rate map, time step, seed and random engine; floating point or exact numbers", "why_tests_cant": "the example is not tested at all, and the claim is about every step of runs of unbounded length and any number of holes", "anchors": ["examples/ToF/ToF_example.cpp: main, createQueue", "CoarseGrainSites/src/libmythical/coarsegrainsystem.cpp: hop, removeWalkerFromSystem", "CoarseGrainSites/include/mythical/queue.hpp"]}
{"id": "C62", "title": "The time of flight example hops in order of time and samples in windows", "statement": "With rates such as the example computes, the example runs without error as long as its counters do not overflow, except that it stops on the assertion in createQueue if no hole would hop before the cutoff time. The hops are carried out in order of increasing time; the hops accounted to sample k happen between (k-1) and k times the sampling increment, in other words no hop made before a sample lies after its end and none is left in the queue that lies before it. The number recorded with sample k is the number of holes that have not reached the last plane by time k times the increment.", "quantifier": "every number of steps within the counters, every lattice, every map of mutual positive rates within bounds, every set of holes, increment and random engine with values in (0,1)", "why_tests_cant": "depends on every random number drawn by sites and clusters, over unbounded runs; the example only prints the final table", "anchors": ["examples/ToF/ToF_example.cpp: main, createQueue, calculateRates", "CoarseGrainSites/include/mythical/queue.hpp", "CoarseGrainSites/src/libmythical/coarsegrainsystem.cpp: hop"]}
{"id": "C63", "title": "The transient current accounts for all charge moved", "statement": "In the time of flight example every recorded sample of the transient current is a number, namely charge times the distance all holes together moved along x during the sample, divided by the volume of the lattice and the sampling increment; so the samples add up to charge times total displacement per volume and increment.", "quantifier": "every run of the example, of every length, on every lattice, rate map and set of holes", "why_tests_cant": "the current is computed as a ratio with the number of remaining charges, which can become zero only at the end of a full simulation; nothing in the repository checks the printed table", "anchors": ["examples/ToF/ToF_example.cpp: main"]}
{"id": "C64", "title": "The time of flight example places its charges correctly and is ready to run", "statement": "populateLattice(n) of the time of flight example returns n walkers with ids 0..n-1 on distinct sites of the first plane of the lattice. It returns as soon as the draws of the lattice have named n different sites of that plane, and never returns if n exceeds the number of sites of the plane. No rate of calculateRates exceeds the Marcus rate without barrier at distance zero. So with these charges and these rates the whole program runs as described for its loop, for any lattice, energies, seed and number of steps within the counters, or stops on the assertion in createQueue because no hole would hop before the cutoff time.", "quantifier": "every lattice, every number of charges, every sequence of random numbers, every list of site energies, every recipe for the rates with positive temperature and reorganisation energy", "why_tests_cant": "a loop that runs until random draws have hit enough sites, and a composition of the whole library for arbitrary input; the example is not tested", "anchors": ["examples/ToF/ToF_example.cpp: populateLattice, calculateRates, main", "CoarseGrainSites/src/libmythical/charge_transport/cuboid_lattice.cpp: getRandomSite"]}
{"id": "C65", "title": "The unit of time does not matter", "statement": "A program that gives all its rates and its time resolution in another unit of time performs the same simulation: the calls return again, the same walkers are inside on the same sites with the same targets, their dwell times are the old ones in the new unit, getClusters, getResolutionOfClusters and getClusterIdOfSite answer the same, and getTimeIncrementOfClusters answers the old increments in the new unit.", "quantifier": "every positive conversion factor, every valid program of any length, rate map, set of walkers, stream of draws, clock and hash order", "why_tests_cant": "it relates two complete runs of arbitrary programs for arbitrary factors; a test compares single numbers of one run", "anchors": ["CoarseGrainSites/src/libmythical/coarsegrainsystem.cpp", "CoarseGrainSites/src/libmythical/topologyfeatures/cluster.cpp", "CoarseGrainSites/src/libmythical/topologyfeatures/site.cpp", "CoarseGrainSites/src/libmythical/basin_explorer.cpp"]}
{"id": "C66", "title": "Visit counts do not depend on the unit of time", "statement": "What getVisitFrequencyOfSite answers is a number of visits: it is the same when a program gives its rates and its time resolution in another unit of time.", "quantifier": "every positive conversion factor, every valid program, every site", "why_tests_cant": "it relates two complete runs of arbitrary programs; the counts inside a cluster come from a formula in which the units do not cancel, which tests with one set of rates cannot show", "anchors": ["CoarseGrainSites/src/libmythical/topologyfeatures/cluster.cpp: getVisitFrequency", "CoarseGrainSites/src/libmythical/coarsegrainsystem.cpp: getVisitFrequencyOfSite"]}
{"id": "C67", "title": "More effort brings the occupation probabilities to the quasi-stationary ones", "statement": "For a connected set of sites there is exactly one positive distribution over them that keeps its shape while a walker hops inside (the quasi-stationary distribution). The occupation probabilities a cluster reports after its update are as close to it as wanted once the convergence settings ask for enough iterations or a small enough tolerance, whatever the cluster went through before.", "quantifier": "every connected cluster of two or more sites with mutual positive rates, every error bound, all three convergence methods, every history of the cluster before the update", "why_tests_cant": "existence, uniqueness and the limit are statements about all iteration counts and all rate matrices; a test sees the result of finitely many iterations on one matrix", "anchors": ["CoarseGrainSites/src/libmythical/topologyfeatures/cluster.cpp: solveMasterEquation_, iterate_, calculateEscapeRatesFromSitesToTheirNeighbors_, calculateEscapeTimeConstant_, getProbabilityOfHoppingToNeighborOfCluster, getProbabilityOfOccupyingInternalSite, getTimeConstant"]}
{"id": "C68", "title": "A cluster is left as by a walker that hops site by site", "statement": "The probabilities with which a cluster sends walkers to its neighbours are the probabilities with which a walker that hops from site to site with the same rates, from the site on which it entered, first leaves the cluster to those neighbours.", "quantifier": "every connected cluster with an exit, every neighbour, every entry site, in the limit of fine convergence settings", "why_tests_cant": "the reference is an infinite sum over all paths inside the cluster of any length", "anchors": ["CoarseGrainSites/src/libmythical/topologyfeatures/cluster.cpp: solveMasterEquation_, iterate_, calculateEscapeRatesFromSitesToTheirNeighbors_, calculateEscapeTimeConstant_, getProbabilityOfHoppingToNeighborOfCluster, getProbabilityOfOccupyingInternalSite, getTimeConstant"]}
{"id": "C69", "title": "The time constant of a cluster is the mean stay of a walker that hops site by site", "statement": "The time constant of a cluster is the mean time a walker that hops from site to site with the same rates spends in the cluster before it leaves.", "quantifier": "every connected cluster with an exit, in the limit of fine convergence settings", "why_tests_cant": "the reference is an infinite sum over all stays of any length; tests compare the time constant with numbers computed by the same formula", "anchors": ["CoarseGrainSites/src/libmythical/topologyfeatures/cluster.cpp: solveMasterEquation_, iterate_, calculateEscapeRatesFromSitesToTheirNeighbors_, calculateEscapeTimeConstant_, getProbabilityOfHoppingToNeighborOfCluster, getProbabilityOfOccupyingInternalSite, getTimeConstant"]}
{"id": "C70", "title": "Systems in one program do not disturb each other", "statement": "A program may use several systems, alternate between them in any order and move walkers from one to another (out of one before into the next). Every system then behaves as if it were the only one: a call of one changes nothing another one reports about its clusters, visit counts, occupied sites, resolutions and time increments, nor any walker in it; hops of a valid system keep returning; and what a system reports depends only on its own calls.", "quantifier": "every number of systems, every interleaving of their calls, every arithmetic, random stream, clock and hash order", "why_tests_cant": "the tests use one system at a time; the interleavings are unbounded and the systems share a static id counter, the walkers and the rates", "anchors": ["CoarseGrainSites/src/libmythical/coarsegrainsystem.cpp", "CoarseGrainSites/src/libmythical/topologyfeatures/cluster.cpp: clusterIdCounter, Cluster"]}
{"id": "C71", "title": "Inside a cluster a walker is found where a hop-by-hop walker would be", "statement": "When a cluster moves a walker to one of its sites instead of letting it leave, it picks each site with the fraction of time that a walker hopping from site to site with the same rates spends there; with Marcus rates this is exp(-E/kT) normalised over the sites of the cluster.", "quantifier": "every connected cluster with an exit, every energies, temperature and reorganisation energy, in the limit of fine convergence settings", "why_tests_cant": "the claim relates a random pick to an infinite sum over stays of any length, and to the Boltzmann distribution for all energies; tests compare single tables with fixed numbers", "anchors": ["CoarseGrainSites/src/libmythical/topologyfeatures/cluster.cpp: calculateProbabilityHopToInternalSite_, pickInternalSite_, solveMasterEquation_", "CoarseGrainSites/src/libmythical/charge_transport/marcus.cpp"]}
{"id": "C72", "title": "A walker in a cluster stays for an exponential time with the cluster's time constant, in steps of its increment", "statement": "When a walker arrives in a cluster, the time it is to stay is -ln(u) times the time constant the cluster has then, u being the next number of the cluster's generator. The dwell times the walker reports while it hops inside the cluster are the cluster's time increments, the last one cut so that they add up to exactly that time; until then the walker is on a site of the cluster and is sent to a site of the cluster. This holds whatever other walkers do in between, including hops that make the cluster grow, unless another cluster absorbs it. If the increment does not change, the number of hops of a stay is the stay divided by the increment, rounded up. A walker that comes back later starts a new stay.", "quantifier": "every valid program in exact arithmetic: any number of walkers and clusters, any interleaving, length of stay, random stream, clock, hash order and tie-breaking", "why_tests_cant": "a stay consists of unboundedly many hops interleaved with hops of other walkers and with coarse graining; tests look at the dwell times of a single isolated cluster", "anchors": ["CoarseGrainSites/src/libmythical/coarsegrainsystem.cpp: hop", "CoarseGrainSites/src/libmythical/topologyfeatures/cluster.cpp: getDwellTime, pickNewSiteId, migrateSitesFrom", "CoarseGrainSites/src/libmythical/topologyfeatures/topology_feature.cpp: getDwellTime"]}
{"id": "C73", "title": "On sites outside of clusters the walker waits and hops as in kinetic Monte Carlo", "statement": "After a hop that ends on a site outside of all clusters, the walker's dwell time is -ln(u)/S and its next site is the neighbour in whose interval the number v falls; u and v are the next two numbers of the site's generator, S the sum of the rates off the site, and the intervals of the neighbours are disjoint with lengths rate/S. This holds at any time in the simulation, after any coarse graining of other sites.", "quantifier": "every valid program in exact arithmetic, every state it reaches, every walker and site outside of clusters", "why_tests_cant": "tests check single sites that were never part of a running system; here the claim holds after arbitrary histories of hops, clusters and queries", "anchors": ["CoarseGrainSites/src/libmythical/coarsegrainsystem.cpp: hop", "CoarseGrainSites/src/libmythical/topologyfeatures/site.cpp: pickNewSiteId", "CoarseGrainSites/src/libmythical/topologyfeatures/topology_feature.cpp: getDwellTime"]}
{"id": "C74", "title": "What a cluster reports changes only when it gains sites", "statement": "As long as a cluster has the same sites, its time constant, its resolution and the time increment reported for it stay what they were, whatever hops, queries, walkers, removals, new sites and searches for other clusters happen in between. Sites never leave a cluster that still exists.", "quantifier": "every program, reachable state and further calls, every arithmetic, hash order, clock and random stream", "why_tests_cant": "tests read the increments right after one coarse graining; that no sequence of other calls changes them needs an invariant over all executions", "anchors": ["CoarseGrainSites/src/libmythical/coarsegrainsystem.cpp: hop, mergeSitesAndClusters_, getTimeIncrementOfClusters", "CoarseGrainSites/src/libmythical/topologyfeatures/cluster.cpp: updateProbabilitiesAndTimeConstant, getTimeIncrement"]}
{"id": "C75", "title": "Time constants of clusters are bounded by the rates", "statement": "If every rate is at least lo and the rates off every site add up to at most hi, then at any time in a valid simulation the time constant of every cluster is at least 1/hi and at most hi/lo^2, however many sites the cluster has; its time increment is positive and at most half of the time constant.", "quantifier": "every valid program in exact arithmetic within the bound on hops of C48; every cluster, size, shape, hash order and random stream", "why_tests_cant": "cluster sizes and shapes are unbounded, and the solver iterates to a data dependent tolerance", "anchors": ["CoarseGrainSites/src/libmythical/topologyfeatures/cluster.cpp: calculateEscapeTimeConstant_, solveMasterEquation_", "CoarseGrainSites/src/libmythical/coarsegrainsystem.cpp: getTimeIncrementOfClusters"]}
{"id": "C76", "title": "Where a cluster sends its walkers", "statement": "A walker on a site of a cluster is sent to one of the cluster's sites while its stay goes on, site k with a share of the draws proportional to the probability the cluster gives for k divided by the sum of the rates from k; when the stay is over it is sent to a neighbour of the cluster, neighbour n with a share proportional to the sum over the sites k of that probability times the branching ratio from k to n. A walker whose stay is over therefore always leaves the cluster, and can reach every neighbour of it.", "quantifier": "every valid program in exact arithmetic within the bound on hops of C48; every rate map, cluster, number of walkers, schedule, hash order, clock and random stream", "why_tests_cant": "the shares are those of a table that is filled when a cluster is created and appended to when it grows; whether later hops still follow the rates depends on the whole history of the cluster, and that a walker never gets out is a claim about all continuations of a run", "anchors": ["CoarseGrainSites/src/libmythical/topologyfeatures/cluster.cpp: pickNewSiteId, pickInternalSite_, pickClusterNeighbor_, calculateInternalDwellTimes_, calculateProbabilityHopToInternalSite_, calculateProbabilityHopToNeighbors_", "CoarseGrainSites/src/libmythical/coarsegrainsystem.cpp: hop, mergeSitesAndClusters_"]}
{"id": "C77", "title": "The ids of walkers are only names", "statement": "Replacing the ids under which a program passes its walkers to the system by other ids, different ones for walkers with different ids, changes nothing: every call ends in the same way (returns, throws the same exception or fails), and afterwards the walkers are on the same sites with the same targets and dwell times, and clusters, resolutions, time increments, occupied sites and visit counts are the same. Ids are not ignored, though: two walkers that share an id share the rest of a stay in a cluster.", "quantifier": "every program, every replacement that keeps the ids of the program apart, every arithmetic, engine, clock, explorer and hash order", "why_tests_cant": "a relation between two runs of the same arbitrary program; a test compares one pair of runs", "anchors": ["CoarseGrainSites/src/libmythical/topologyfeatures/cluster.cpp", "CoarseGrainSites/src/libmythical/coarsegrainsystem.cpp", "CoarseGrainSites/include/mythical/coarsegrainsystem.hpp"]}
{"id": "C78", "title": "The counters of a system do not overflow in programs with fewer than 2^31 - 1 placements and hops", "statement": "The visit counters of sites and clusters, the visits remembered at the last query and the occupation counters never exceed the number of placements and hops made so far (plus one for occupation), and occupation counters never fall below minus the number of hops and removals; hence in a program with fewer than 2^31 - 1 placements and hops, and with an id counter that leaves room for two ids per hop, none of these int members and no cluster id leaves the range of int. The count read for a site outside clusters lies between zero and the number of placements and hops.", "quantifier": "every program, every number of sites, walkers and hops, every arithmetic, engine, clock, explorer and hash order", "why_tests_cant": "the overflow would need runs of billions of hops; a bound for every program is an invariant", "anchors": ["CoarseGrainSites/src/libmythical/topologyfeatures/topology_feature.cpp", "CoarseGrainSites/src/libmythical/topologyfeatures/cluster.cpp", "CoarseGrainSites/src/libmythical/coarsegrainsystem.cpp"]}
{"id": "C79", "title": "A site's time constant and probabilities are right up to rounding", "statement": "In double arithmetic, for n rates in a range that excludes overflow and underflow, setRatesToNeighbors leaves a finite, positive time constant that differs from one over the sum of the rates by at most a relative (2n+1) 2^-52; each neighbour has exactly one probability, positive and at most 1, which differs from its rate over the sum by at most the same relative error; and the probabilities add up to 1 up to that error.", "quantifier": "every map of at most 2^40 rates between 2^-400 and 2^400, every hash order", "why_tests_cant": "the worst case over all doubles and all orders of summation", "anchors": ["CoarseGrainSites/src/libmythical/topologyfeatures/site.cpp: Site", "CoarseGrainSites/src/libmythical/topologyfeatures/topology_feature.cpp: TopologyFeature"]}
{"id": "C80", "title": "Rounding moves a site's picks by a few units in the last place only", "statement": "In double arithmetic pickNewSiteId returns a neighbour for every random number below 1 - (3n+1) 2^-52 (n neighbours), and every neighbour has an interval of length rate over sum of rates such that random numbers inside it by at least that margin give this neighbour and random numbers outside it by more than that margin do not.", "quantifier": "every map of at most 2^40 rates between 2^-400 and 2^400, every random number, every hash order", "why_tests_cant": "the failing random numbers are a few in 2^53", "anchors": ["CoarseGrainSites/src/libmythical/topologyfeatures/site.cpp: Site", "CoarseGrainSites/src/libmythical/topologyfeatures/topology_feature.cpp: TopologyFeature"]}
{"id": "C81", "title": "A site's dwell times are positive and right up to rounding", "statement": "In double arithmetic, with a log correct to one unit in the last place, getDwellTime returns for every random number u strictly between 0 and 1 a finite, positive time that differs from -ln(u) over the sum of the n rates by at most a relative (2n+6) 2^-52.", "quantifier": "every map of at most 2^40 rates between 2^-400 and 2^400, every random number, every hash order", "why_tests_cant": "the worst case over all doubles, including random numbers next to 0 and 1", "anchors": ["CoarseGrainSites/src/libmythical/topologyfeatures/site.cpp: Site", "CoarseGrainSites/src/libmythical/topologyfeatures/topology_feature.cpp: TopologyFeature"]}
{"id": "C82", "title": "In double arithmetic walkers outside of clusters still wait and hop as in kinetic Monte Carlo, up to rounding", "statement": "After initializeSystem with n rates for a site, the site's neighbours have disjoint intervals of length rate/total, fixed for the rest of the program. In double arithmetic, whatever calls follow: after a hop that ends on the site while it is outside of all clusters, with u and v the next two numbers of its generator, the walker's dwell time is finite, positive and -ln(u)/total up to a relative (2n+6) 2^-52; the walker aims at a neighbour if v < 1 - (3n+1) 2^-52, at the neighbour whose interval v lies in by more than that margin, and at no neighbour whose interval v lies outside of by more than it.", "quantifier": "every program and schedule of calls, every state it reaches, every map of at most 2^40 rates per site between 2^-400 and 2^400, every random number, every hash order", "why_tests_cant": "needs all later calls, including merges of clusters and changes of rates, and the worst case of rounding over all doubles", "anchors": ["CoarseGrainSites/src/libmythical/coarsegrainsystem.cpp: hop", "CoarseGrainSites/src/libmythical/topologyfeatures/site.cpp: Site"]}
{"id": "C83", "title": "The order in which rates are inserted does not matter", "statement": "Two programs that insert the same rates into the map in different orders (or are built with a standard library that orders its hash tables differently) simulate the same with the same seed: the same positions, targets and dwell times of walkers, the same visits and the same occupied sites after the same calls. (False for the order of the sites: seeds are given to the sites in the order in which the map lists them. True for the order of the neighbours of each site; and in any order both programs run the same kinetic Monte Carlo process, with the streams of random numbers exchanged between sites.)", "quantifier": "every network of positive rates, every pair of listings, every pair of hash orders, every seed, every sequence of entering, hopping and leaving walkers before the first search for a cluster", "why_tests_cant": "all listings and all interleavings of walkers; a test compares a few orders on one platform", "anchors": ["CoarseGrainSites/src/libmythical/coarsegrainsystem.cpp: initializeSystem", "CoarseGrainSites/src/libmythical/topologyfeatures/site.cpp: setRatesToNeighbors, calculateProbabilityHopToNeighbor_, pickNewSiteId"]}
{"id": "C84", "title": "In double arithmetic the simulation is still kinetic Monte Carlo, up to rounding, until clusters are searched for", "statement": "If every target of a rate is itself a key of the rate map and the rates lie between 2^-400 and 2^400, then in double arithmetic, up to the hop at which clusters are first searched for, initializeSystem, initializeWalkers, hop and removeWalkerFromSystem carry out a kinetic Monte Carlo process with exclusion whose waiting times and choices depend only on the site and on the next two numbers of its stream: with n neighbours the waiting time is -ln(u)/(sum of the rates) up to a relative (2n+6) 2^-52 and positive, and each neighbour is chosen by an interval of numbers of length rate/(sum of the rates) up to a margin of (3n+1) 2^-52 at its ends. A walker moves if its potential site is free, else it stays and draws again; dwell times, potential sites, visit counts and occupation reported are those of the process. No entry at a free site, hop or removal is refused as long as no number closer to 1 than the margin is drawn. With setRandomSeed(s) the i-th site of the map has the stream seeded with s+i.", "quantifier": "every rate map, every threshold or none, every seed, clock, hash order and random engine, every correctly rounded double arithmetic with a log accurate to 2^-52, and every sequence of entries, hops and removals", "why_tests_cant": "the worst case of rounding over all doubles, together with arbitrarily long interleavings of walkers on arbitrary networks", "anchors": ["CoarseGrainSites/src/libmythical/coarsegrainsystem.cpp: initializeSystem, initializeWalkers, hop, removeWalkerFromSystem", "CoarseGrainSites/src/libmythical/topologyfeatures/site.cpp: setRatesToNeighbors, getDwellTime, pickNewSiteId"]}
{"id": "C85", "title": "Occupation and visits are counts", "statement": "After any sequence of calls to a site, getVisitFrequency is what setVisitFrequency was last given plus the calls of occupy since (0 at the start), and isOccupied says whether more walkers came (occupy) than left (vacate, removeWalker) since the status was last set by hand; so a site is occupied exactly while a walker is on it. (False for a site vacated while it was free: it does not notice the next walker.) A cluster as a whole is occupied exactly if occupy() without a site was called more often than vacate and removeWalker together, whatever else happened to it; so a cluster that walkers only enter at its sites, as they do by hopping, never is.", "quantifier": "every sequence of calls to a site, every history of a cluster including updates and merges, every arithmetic, hash order and random engine", "why_tests_cant": "all interleavings of calls of any length; tests call occupy and vacate a few times", "anchors": ["CoarseGrainSites/src/libmythical/topologyfeatures/topology_feature.cpp", "CoarseGrainSites/src/libmythical/topologyfeatures/topology_feature.hpp", "CoarseGrainSites/src/libmythical/topologyfeatures/cluster.cpp: occupyCluster_, vacateCluster_"]}
{"id": "C86", "title": "The ids of clusters are only names", "statement": "A program run in a process in which other simulations have already used up cluster ids gives the same results as in a fresh process: the same walkers with the same targets and dwell times, the same occupied sites and visits, and the same clusters, with the same sites, resolutions and time increments, all their ids larger by the same number. Either both runs return or neither does.", "quantifier": "every program, every number of ids used up before, every rate map, clock, engine, arithmetic and tie-breaking of the graph library, every hash table that moves with its keys", "why_tests_cant": "compares pairs of executions of any length; ids decide which cluster survives a merge and the order in which clusters are walked through", "anchors": ["CoarseGrainSites/src/libmythical/topologyfeatures/cluster.cpp: clusterIdCounter", "CoarseGrainSites/src/libmythical/coarsegrainsystem.cpp: getFavoredClusterId, mergeSitesAndClusters_, createCluster_", "CoarseGrainSites/src/libmythical/cluster_container.cpp"]}
{"id": "C87", "title": "A seeded simulation gives the same results among others as alone", "statement": "Take a program that uses several systems, each with its own walkers, calls them in any order and seeds one of them before handing it rates. Make the calls to that system alone, in another process with another clock: they return too, the same walkers are inside, with the same sites, targets and dwell times, and the occupied sites, the visits and the clusters with their sites, resolutions and time increments are the same; only the ids of the clusters differ, and they keep their order. So two programs that make the same calls to a system get the same results from it, whatever they do with other systems.", "quantifier": "every program with any number of systems, every interleaving of calls, every pair of clocks and initial values of the cluster id counter, every rate map, engine and arithmetic, every hash table whose order does not depend on gaps between ids", "why_tests_cant": "compares pairs of executions of any length under any interleaving; ids decide which cluster survives a merge", "anchors": ["CoarseGrainSites/src/libmythical/topologyfeatures/cluster.cpp: clusterIdCounter", "CoarseGrainSites/src/libmythical/coarsegrainsystem.cpp: setRandomSeed, initializeSystem, getFavoredClusterId, mergeSitesAndClusters_, createCluster_", "CoarseGrainSites/src/libmythical/cluster_container.cpp"]}
{"id": "C88", "title": "The queries of a lattice agree with one another", "statement": "getX, getY and getZ give the coordinates that getPosition gives, and throw when it throws. getNeighborDistances answers the same for an index and for the position of that index, and getNeighbors lists the sites of getNeighborDistances in the same order. A position that is not one of the lattice is rejected by getNeighborDistances in every direction, periodic or not.", "quantifier": "every lattice, boundary combination, spacing, cutoff, index and position, whether the call returns, throws or overflows", "why_tests_cant": "compares several implementations of the same loops and formulas over all inputs, including rejected ones and negative indices", "anchors": ["CoarseGrainSites/src/libmythical/charge_transport/cuboid_lattice.cpp: getPosition, getX, getY, getZ, getNeighbors, getNeighborDistances", "CoarseGrainSites/include/mythical/charge_transport/cuboid_lattice.hpp: Cuboid"]}
