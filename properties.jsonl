{"id": "C01", "title": "A step runs exactly the earliest events, once each, in order", "statement": "Schedule::step (sequential build) runs exactly the agents whose scheduled time equals the smallest scheduled time in the queue as state.before_step left it, each of them exactly once, and in non-decreasing order of their ordering value; no other agent runs.", "quantifier": "every queue content without NaN times, every tie-breaking choice of the heap, every agent and state behaviour", "why_tests_cant": "The queue, the tie-breaking and the agents' code are all unbounded; a test fixes one of each.", "anchors": ["src/engine/schedule.rs:Schedule::step", "src/engine/priority.rs:Priority::cmp"]}
{"id": "C02", "title": "Repeating agents come back exactly once, one time unit later", "statement": "After Schedule::step, an agent that ran, was scheduled as repeating and does not report is_stopped is in the queue exactly once, with the internal state it ended the step with, at its old time plus 1.0 and its old ordering; an agent that ran and was scheduled once or reports is_stopped is no longer queued; an agent that did not run is still queued with unchanged state, time and ordering.", "quantifier": "every queue with distinct ids, every agent behaviour, every mix of repeating/one-shot/stopped agents", "why_tests_cant": "Needs every combination of stopped/repeating/ties and queue size.", "anchors": ["src/engine/schedule.rs:Schedule::step", "src/engine/schedule.rs:Schedule::schedule_once", "src/engine/agent.rs:Agent::is_stopped"]}
{"id": "C03", "title": "Hook protocol and step counter", "statement": "Over n calls of Schedule::step on a fresh schedule the state receives update(0) once, before anything else, and then for each step i: before_step, the agents' hooks (before_step, step, after_step per agent, uninterrupted), after_step, update(i+1). The step counter is n afterwards, also when the queue is empty in some steps.", "quantifier": "every number of steps, every hook behaviour that uses the public schedule API", "why_tests_cant": "The claim is about all histories of hooks that may themselves reschedule agents.", "anchors": ["src/engine/schedule.rs:Schedule::step", "src/engine/state.rs:State"]}
{"id": "C04", "title": "Scheduling loses and duplicates nothing", "statement": "For any sequence of schedule_repeating / distributed_schedule_repeating / dequeue / step calls with fewer than 2^32 agents scheduled in total, every id handed out is fresh, schedule_repeating returns true, no two queued events share an id, and the set of queued agents is exactly those scheduled and neither dequeued nor dropped by step.", "quantifier": "every operation sequence of any length, adaptive to returned values", "why_tests_cant": "History property over unbounded operation sequences.", "anchors": ["src/engine/schedule.rs:Schedule::schedule_repeating", "src/engine/schedule.rs:Schedule::distributed_schedule_repeating", "src/engine/schedule.rs:Schedule::dequeue", "src/engine/agentimpl.rs:AgentImpl"]}
{"id": "C05", "title": "schedule_once never silently drops the agent it is given", "statement": "After schedule_once(agent, t, ord) the queue contains that agent at time t and ordering ord.", "quantifier": "every schedule and every AgentImpl, including ids chosen by the caller", "why_tests_cant": "Depends on id collisions between caller-chosen ids and the schedule's counter, which a test would not hit by accident.", "anchors": ["src/engine/schedule.rs:Schedule::schedule_once", "src/engine/agentimpl.rs:AgentImpl::eq"]}
{"id": "C06", "title": "Simulation time never goes backwards and advances by one", "statement": "If no event is scheduled before the current time, schedule.time never decreases from one step to the next; and a schedule holding only repeating agents that all start at the same time t runs all of them at t, t+1, t+2, ...", "quantifier": "every number of steps, every f32 time", "why_tests_cant": "f32 rounding makes this fail only from 2^24 on, far beyond what a test runs.", "anchors": ["src/engine/schedule.rs:Schedule::step"]}
{"id": "C07", "title": "Priority is a total order compatible with equality", "statement": "Priority's cmp is total, antisymmetric with respect to ==, and transitive: earlier time is greater, then smaller ordering is greater.", "quantifier": "all triples of priorities, including NaN, infinities and signed zero", "why_tests_cant": "Order laws quantify over all triples of 2^64 values.", "anchors": ["src/engine/priority.rs:Priority::cmp", "src/engine/priority.rs:Priority::eq"]}
{"id": "C08", "title": "Dequeue removes exactly one agent", "statement": "dequeue(_, id) returns true iff an agent with that id is queued, removes exactly that agent, and leaves every other event's state, time and ordering unchanged.", "quantifier": "every schedule and id", "why_tests_cant": "Frame condition over every other event.", "anchors": ["src/engine/schedule.rs:Schedule::dequeue"]}
{"id": "C09", "title": "Parallel step runs every agent once under every thread interleaving", "statement": "With the parallel feature and at least one thread, Schedule::step runs each queued agent exactly once and re-queues exactly the repeating non-stopped ones at their own time + 1.0, for every interleaving of the worker threads; agents placed in the same batch run in queue order.", "quantifier": "every thread count >= 1, every interleaving of the batches, every agent behaviour", "why_tests_cant": "Interleavings cannot be enumerated by running.", "anchors": ["src/engine/schedule.rs:Schedule::step (parallel)"]}
{"id": "C10", "title": "Parallel and sequential schedules run the same agents in a step", "statement": "For the same queue, the parallel step runs the same set of agents as the sequential step, i.e. only those scheduled for the current (earliest) time.", "quantifier": "every queue", "why_tests_cant": "Needs a queue with several distinct times; the property is an equivalence of two builds that cannot be linked in one test binary.", "anchors": ["src/engine/schedule.rs:Schedule::step", "src/engine/schedule.rs:Schedule::step (parallel)"]}
{"id": "C11", "title": "simulate! runs the requested repetitions and steps", "statement": "simulate!(s, n, reps, false) and simulate_old! perform reps repetitions; each one starts from a fresh schedule and state.init, calls schedule.step at least once if n>0 and at most n times, stops right after the first step whose end_condition is true, and not earlier; the state value is carried from one repetition to the next.", "quantifier": "every n, reps, state behaviour", "why_tests_cant": "Quantifies over arbitrary end conditions and counts.", "anchors": ["src/lib.rs:simulate!", "src/lib.rs:simulate_old!"]}
{"id": "C12", "title": "Double-buffered concurrent map behaves like two maps", "statement": "DBDashMap behaves like a pair of finite maps (read, write): insert/remove/get_write/len/w_keys act on write only, get_read/get_key_value/r_len/keys/values/is_empty_r read only the read map, lazy_update makes the write map the read map and empties write, update copies every write entry over the read map; the number of shards and the hash function are unobservable.", "quantifier": "every operation sequence, every hash function, every shard count that is a power of two >= 2", "why_tests_cant": "Refinement over all operation sequences and hash functions.", "anchors": ["src/utils/dbdashmap.rs:DBDashMap"]}
{"id": "C13", "title": "Shard selection is total and stable", "statement": "For every key the selected shard index is smaller than the number of shards, so no map operation can panic on shard access, and equal keys always select the same shard.", "quantifier": "every 64-bit hash, every shard count 2^k with 1<=k<=63", "why_tests_cant": "2^64 hashes.", "anchors": ["src/utils/dbdashmap.rs:determine_shard", "src/utils/dbdashmap.rs:shard_amount"]}
{"id": "C14", "title": "Concurrent inserts are linearizable and lose nothing", "statement": "When several threads insert into a DBDashMap, the resulting write map equals that of some sequential order of the inserts that respects each thread's program order; if the keys are pairwise distinct every inserted pair is present.", "quantifier": "every set of threads, every interleaving of the lock-protected sections", "why_tests_cant": "Interleavings.", "anchors": ["src/utils/dbdashmap.rs:DBDashMap::insert"]}
{"id": "C15", "title": "DBDashMap::insert reports the previous value", "statement": "insert(k, v) returns the value previously stored for k in the write buffer, or None if there was none (the contract of the map API it copies).", "quantifier": "every map state and key", "why_tests_cant": "Frame over all states.", "anchors": ["src/utils/dbdashmap.rs:DBDashMap::insert"]}
{"id": "C16", "title": "DenseNumberGrid2D: reads see the last published state", "statement": "For in-range locations, get_value returns what get_value_unbuffered would have returned for that location just before the last lazy_update or update (None if never published), no matter which set/remove calls happened since; get_value_unbuffered returns the last value set since the last publication unless removed.", "quantifier": "every grid size, every sequence of set/remove/lazy_update/update", "why_tests_cant": "History property.", "anchors": ["src/engine/fields/dense_number_grid_2d.rs:DenseNumberGrid2D"]}
{"id": "C17", "title": "DenseNumberGrid2D: distinct cells are independent", "statement": "Setting or removing the value of one location never changes what is read at any other location.", "quantifier": "every grid size and every pair of locations, including out-of-range ones accepted without panic", "why_tests_cant": "Pairs of locations over all i32.", "anchors": ["src/engine/fields/dense_number_grid_2d.rs:set_value_location", "src/engine/fields/dense_number_grid_2d.rs:get_value"]}
{"id": "C18", "title": "Number grid searches are exact", "statement": "get_location(v) returns a location holding v iff some cell holds v in the read state (the first such cell in x-major order for the dense grid); get_location_unbuffered likewise for the write state.", "quantifier": "every grid content", "why_tests_cant": "All contents.", "anchors": ["src/engine/fields/dense_number_grid_2d.rs:get_location", "src/engine/fields/sparse_number_grid_2d.rs:get_location"]}
{"id": "C19", "title": "Empty-cell queries are exact", "statement": "get_empty_bags returns exactly the in-range locations without a value in the read state, each once; get_random_empty_bag returns one of them, and None iff there is none.", "quantifier": "every grid size and content, every random choice", "why_tests_cant": "All contents and random draws.", "anchors": ["src/engine/fields/dense_number_grid_2d.rs:get_empty_bags", "src/engine/fields/dense_number_grid_2d.rs:get_random_empty_bag", "src/engine/fields/sparse_number_grid_2d.rs:get_empty_bags", "src/engine/fields/sparse_number_grid_2d.rs:get_random_empty_bag"]}
{"id": "C20", "title": "apply_to_all_values transforms every value exactly once", "statement": "apply_to_all_values(f, READ) replaces every value v of the read state by f(v); WRITE replaces every value of the write state by f(v); READWRITE writes f(w) where the write state holds w and f(r) where only the read state holds r; cells without a value stay without one and the buffer not named is unchanged.", "quantifier": "every grid content and closure", "why_tests_cant": "All contents and closures.", "anchors": ["src/engine/fields/dense_number_grid_2d.rs:apply_to_all_values", "src/engine/fields/sparse_number_grid_2d.rs:apply_to_all_values"]}
{"id": "C21", "title": "Dense and sparse number grids are interchangeable", "statement": "For the same sequence of set/remove/lazy_update/update/get_value/get_value_unbuffered/get_empty_bags calls on in-range locations a dense and a sparse number grid of the same size return the same answers.", "quantifier": "every in-range operation sequence", "why_tests_cant": "Equivalence of two implementations over all histories.", "anchors": ["src/engine/fields/dense_number_grid_2d.rs", "src/engine/fields/sparse_number_grid_2d.rs"]}
{"id": "C22", "title": "DenseGrid2D: objects placed are exactly the objects read after lazy_update", "statement": "For histories of set_object_location, remove_object_location and lazy_update on in-range locations, get_objects(loc) after a lazy_update returns exactly the objects placed at loc (and not removed) since the previous lazy_update, each once, in order of their last placement.", "quantifier": "every grid size and history", "why_tests_cant": "History property.", "anchors": ["src/engine/fields/dense_object_grid_2d.rs:DenseGrid2D"]}
{"id": "C23", "title": "DenseGrid2D::update publishes like lazy_update", "statement": "After update() the read state equals the write state, and this stays true for later updates and lazy_updates (update and lazy_update can be mixed freely).", "quantifier": "every history mixing update and lazy_update", "why_tests_cant": "History property.", "anchors": ["src/engine/fields/dense_object_grid_2d.rs:Field::update"]}
{"id": "C24", "title": "SparseGrid2D: objects placed are exactly the objects read after lazy_update", "statement": "For histories of set_object_location, remove_object_location, lazy_update and update, get_objects(loc) returns exactly the multiset of objects placed at loc (and not removed) in the last published epoch.", "quantifier": "every history", "why_tests_cant": "History property.", "anchors": ["src/engine/fields/sparse_object_grid_2d.rs:SparseGrid2D"]}
{"id": "C25", "title": "Object grids: an object has one location", "statement": "After set_object_location(o, l2) for an object already placed at l1, the object is found at l2 only, in both grid types alike.", "quantifier": "every history", "why_tests_cant": "History property.", "anchors": ["src/engine/fields/dense_object_grid_2d.rs:set_object_location", "src/engine/fields/sparse_object_grid_2d.rs:set_object_location"]}
{"id": "C26", "title": "Object grid closures receive the object's own location", "statement": "apply_to_all_values calls the closure for each object with the location where that object is stored, removes the object when the closure returns None and replaces it otherwise.", "quantifier": "every grid size, content and closure", "why_tests_cant": "All sizes and contents.", "anchors": ["src/engine/fields/dense_object_grid_2d.rs:apply_to_all_values", "src/engine/fields/dense_object_grid_2d.rs:calculate_indexes_bag", "src/engine/fields/sparse_object_grid_2d.rs:apply_to_all_values"]}
{"id": "C27", "title": "Object grid searches and empty-cell queries are exact", "statement": "get_location(o) finds a cell containing o iff one exists; get_empty_bags lists exactly the in-range cells without objects; get_random_empty_bag returns one of them and terminates whenever one exists.", "quantifier": "every content and random draw", "why_tests_cant": "All contents.", "anchors": ["src/engine/fields/dense_object_grid_2d.rs:get_location", "src/engine/fields/dense_object_grid_2d.rs:get_empty_bags", "src/engine/fields/sparse_object_grid_2d.rs:get_location", "src/engine/fields/sparse_object_grid_2d.rs:get_empty_bags", "src/engine/fields/sparse_object_grid_2d.rs:get_random_empty_bag"]}
{"id": "C28", "title": "Field2D: an object is stored in the bag of its location, and read after lazy_update", "statement": "get_objects(loc) after lazy_update returns exactly the objects placed since the previous lazy_update at locations with the same discretized cell as loc, in placement order, minus those removed; get_objects_unbuffered the same for the current epoch.", "quantifier": "every field size, discretization, history", "why_tests_cant": "History property over real-valued inputs.", "anchors": ["src/engine/fields/field_2d.rs:Field2D"]}
{"id": "C29", "title": "Field2D neighbour queries return only objects within the distance", "statement": "get_neighbors_within_distance(loc, dist) returns only objects placed at a location whose (toroidal, if requested) distance from loc is at most dist.", "quantifier": "every field, location, distance and placement", "why_tests_cant": "Real-valued geometry.", "anchors": ["src/engine/fields/field_2d.rs:get_neighbors_within_distance", "src/engine/fields/field_2d.rs:check_circle"]}
{"id": "C30", "title": "Field2D neighbour queries return every object within the distance, once", "statement": "get_neighbors_within_distance(loc, dist) returns every object placed within distance dist of loc, exactly once per placement.", "quantifier": "every field, location, distance, placement, toroidal or not", "why_tests_cant": "Real-valued geometry; counterexamples sit at cell boundaries.", "anchors": ["src/engine/fields/field_2d.rs:get_neighbors_within_distance", "src/engine/fields/field_2d.rs:t_transform"]}
{"id": "C31", "title": "Relaxed neighbour query is a superset of the exact one", "statement": "get_neighbors_within_relax_distance(loc, dist) returns every object that get_neighbors_within_distance(loc, dist) returns, at least as often.", "quantifier": "every field, location, distance", "why_tests_cant": "Real-valued inputs.", "anchors": ["src/engine/fields/field_2d.rs:get_neighbors_within_relax_distance"]}
{"id": "C32", "title": "Toroidal arithmetic", "statement": "toroidal_transform maps every finite value into [0, dim) and differs from it by a multiple of dim; toroidal_distance returns a signed difference of absolute value at most dim/2, congruent to val1-val2 modulo dim, and antisymmetric up to the half-way case.", "quantifier": "all values and positive dimensions", "why_tests_cant": "Real-valued inputs; f32 rounding.", "anchors": ["src/engine/fields/field_2d.rs:toroidal_transform", "src/engine/fields/field_2d.rs:toroidal_distance"]}
{"id": "C33", "title": "Network: undirected edges are symmetric", "statement": "In an undirected Network, for any history of add_node, add_edge, remove_edge and update, v appears in get_edges(u) as often as u appears in get_edges(v), with the same options.", "quantifier": "every history", "why_tests_cant": "History property.", "anchors": ["src/engine/fields/network.rs:add_edge", "src/engine/fields/network.rs:remove_edge"]}
{"id": "C34", "title": "Network: node ids are unique", "statement": "Two different nodes of a Network never share an id, and get_object(get_id(n)) = n.", "quantifier": "every history of add_node/remove_node/update", "why_tests_cant": "Histories with removals.", "anchors": ["src/engine/fields/network.rs:add_node", "src/engine/fields/network.rs:remove_node", "src/engine/fields/network.rs:get_id", "src/engine/fields/network.rs:get_object"]}
{"id": "C35", "title": "Network: reads see the last update only", "statement": "get_edges, get_edge, get_object and get_id answer from the state as of the last update/lazy_update and are unaffected by later add/remove calls.", "quantifier": "every history", "why_tests_cant": "History property.", "anchors": ["src/engine/fields/network.rs"]}
{"id": "C36", "title": "Network: removing a node removes its edges", "statement": "After remove_node(u) succeeds and an update, u is unknown and no remaining node has an edge to u's id.", "quantifier": "every history", "why_tests_cant": "History property.", "anchors": ["src/engine/fields/network.rs:remove_node", "src/engine/fields/network.rs:remove_incoming_edges"]}
{"id": "C37", "title": "Network: preferential attachment builds a connected graph with the right number of edges", "statement": "preferential_attachment_BA(node_set, m) on a network of n>=2 added nodes gives, for every random choice, each node i>=2 exactly min(i, m) edges to distinct earlier nodes; node 0-1 are linked; no self loops; the graph is connected when m>=1.", "quantifier": "every n, m, random stream", "why_tests_cant": "Random choices and sizes.", "anchors": ["src/engine/fields/network.rs:preferential_attachment_BA", "src/engine/fields/network.rs:preferential_attachment_BA_with_seed"]}
{"id": "C38", "title": "Network: removing an edge removes exactly that edge", "statement": "remove_edge(u, v) returns the edge and leaves every other edge in place; after it and update, get_edge(u, v) is None if the nodes were joined by one edge.", "quantifier": "every history", "why_tests_cant": "Frame condition over every other edge.", "anchors": ["src/engine/fields/network.rs:remove_edge"]}
{"id": "C39", "title": "HNetwork: a hyperedge is listed by each of its members", "statement": "After add_edge(nodes) returns true, the same hyperedge is in the list of every member and of no other node, and this stays invariant over add/remove histories.", "quantifier": "every history", "why_tests_cant": "History property.", "anchors": ["src/engine/fields/hnetwork.rs:add_edge", "src/engine/fields/hnetwork.rs:remove_edge"]}
{"id": "C40", "title": "HNetwork: removing an object removes its hyperedges everywhere", "statement": "After remove_object(u) and update, u is unknown and no hyperedge containing u's id is listed by any node.", "quantifier": "every history", "why_tests_cant": "History property.", "anchors": ["src/engine/fields/hnetwork.rs:remove_object"]}
{"id": "C41", "title": "HNetwork: reads see the last update; ids are unique", "statement": "get_edges/get_object answer from the last update; two different nodes never share an id.", "quantifier": "every history", "why_tests_cant": "History property.", "anchors": ["src/engine/fields/hnetwork.rs:add_node", "src/engine/fields/hnetwork.rs:update"]}
{"id": "C42", "title": "Exhaustive exploration enumerates the Cartesian product exactly once", "statement": "build_configurations yields, for every choice of one index per input, exactly one configuration column among the n_conf columns; every row has at least n_conf entries so no lookup panics; configurations come in lexicographic order.", "quantifier": "every number of inputs and every non-empty input length", "why_tests_cant": "Unbounded product.", "anchors": ["src/lib.rs:build_configurations!", "src/explore/model_exploration.rs:explore_sequential!"]}
{"id": "C43", "title": "Exploration returns one row per configuration and repetition", "statement": "explore_sequential!/explore_parallel! return n_conf*reps rows, row k describing configuration k/reps and its repetition k mod reps, built from the inputs of that configuration; sequential and parallel agree on the inputs of each row.", "quantifier": "every input list, mode, repetition count, scheduling of the parallel iterator", "why_tests_cant": "Unbounded.", "anchors": ["src/explore/model_exploration.rs"]}
{"id": "C44", "title": "MPI exploration assigns every configuration to exactly one process", "statement": "With p processes the configurations handled by the ranks are a partition of 0..n_conf, load differs by at most one, and the root's gather counts and displacements match what each rank sends.", "quantifier": "every n_conf and p>=1", "why_tests_cant": "Unbounded.", "anchors": ["src/explore/mpi/model_exploration.rs:explore_distributed_mpi!"]}
{"id": "C45", "title": "MPI exploration rows carry their configuration number", "statement": "Each returned row's conf_num identifies the configuration whose inputs it carries.", "quantifier": "every n_conf and p", "why_tests_cant": "Unbounded.", "anchors": ["src/explore/mpi/model_exploration.rs:explore_distributed_mpi!"]}
{"id": "C46", "title": "Genetic search: results and best individual are right", "statement": "The sequential search evaluates at most generation_num generations (if non-zero), records one row per evaluated individual with its generation and index, stops right after the first individual that reaches the desired fitness, and reports as best an evaluated individual that no evaluated individual beats (for a cmp that is a strict weak order).", "quantifier": "every fitness, selection, crossover, mutation and cmp", "why_tests_cant": "Arbitrary user functions.", "anchors": ["src/explore/genetic.rs:explore_ga_sequential!"]}
{"id": "C47", "title": "Genetic search: parallel agrees with sequential up to early stop", "statement": "explore_ga_parallel! evaluates whole generations; its rows for each generation extend those of the sequential search (same individuals, same fitness), and it stops in the same generation.", "quantifier": "every user function, deterministic simulation", "why_tests_cant": "Arbitrary user functions.", "anchors": ["src/explore/genetic.rs:explore_ga_parallel!"]}
{"id": "C48", "title": "Genetic search over MPI splits the population without loss", "statement": "The sub-populations sent to the ranks are a partition of the population in order, sizes differ by at most one, and after the gather result i carries global index i.", "quantifier": "every population size and process count", "why_tests_cant": "Unbounded.", "anchors": ["src/explore/mpi/genetic.rs"]}
{"id": "C49", "title": "Random search returns the best sample it evaluated", "statement": "random_search! returns a state with the least cost among all evaluated samples (the initial state if no sample beats f32::MAX), never worse than any sample seen, evaluates at most n_iter batches and stops at the first batch whose best cost is <= target.", "quantifier": "every cost, generator, batch size", "why_tests_cant": "Arbitrary user functions.", "anchors": ["src/explore/random_search.rs"]}
{"id": "C50", "title": "Bayesian search returns the best point it evaluated", "statement": "bayesian_search! returns (x, y) with y = objective(x), x evaluated, and y >= objective of every evaluated point, for objectives without NaN.", "quantifier": "every objective, sampler and surrogate", "why_tests_cant": "Arbitrary user functions.", "anchors": ["src/explore/bayesian.rs"]}
{"id": "C51", "title": "gen_param! draws the requested number of values in range", "statement": "gen_param!(ty, min, max, n) returns max(n,1) values, each in [min(min,max), max(min,max)) (or equal to min when min=max).", "quantifier": "every min, max, n and random stream", "why_tests_cant": "All parameters.", "anchors": ["src/lib.rs:gen_param!"]}
{"id": "C52", "title": "Kdtree blocks tile the field", "statement": "For p processes the subdivision yields p blocks with ids 0..p-1 that cover the field, so get_block_by_location never panics inside the field, and overlap only on borders.", "quantifier": "every p>=1, field size", "why_tests_cant": "Unbounded p.", "anchors": ["src/engine/fields/kdtree_mpi.rs:first_subdivision", "src/engine/fields/kdtree_mpi.rs:split", "src/engine/fields/kdtree_mpi.rs:get_block_by_location"]}
{"id": "C53", "title": "Kdtree message exchange delivers exactly the agents addressed to a rank", "statement": "message_exchange returns at rank r, in slot s, exactly the agents rank s addressed to r, for neighbouring ranks.", "quantifier": "every world size, neighbour relation, message content", "why_tests_cant": "Distributed interleavings.", "anchors": ["src/engine/fields/kdtree_mpi.rs:message_exchange"]}
{"id": "C54", "title": "Plot bookkeeping", "statement": "plot! on an existing plot appends the point to its series, and min/max bounds are the exact bounds of all points of the plot; on a missing plot nothing changes; addplot! never overwrites an existing plot.", "quantifier": "every sequence of addplot!/plot!", "why_tests_cant": "History property.", "anchors": ["src/lib.rs:plot!", "src/lib.rs:addplot!"]}
{"id": "C55", "title": "Terminal UI navigation stays in range", "statement": "The selected tab index is always smaller than the number of tabs and the selected log index smaller than the number of logs, and no key press panics.", "quantifier": "every key sequence", "why_tests_cant": "Unbounded key sequences; log counts change concurrently.", "anchors": ["src/utils/monitoring/ui.rs"]}
{"id": "C56", "title": "Publishing survives a change of the processor count", "statement": "lazy_update, update and merge_r_shards of a DBDashMap publish (or drain) every entry of the write buffer without panicking, even if the number of processors the machine reports has changed since the map was created.", "quantifier": "every map history, every pair of processor counts at construction and at publication", "why_tests_cant": "A test machine reports one processor count; the property ranges over pairs of counts and all map contents.", "anchors": ["src/utils/dbdashmap.rs:lazy_update", "src/utils/dbdashmap.rs:update", "src/utils/dbdashmap.rs:merge_r_shards", "src/utils/dbdashmap.rs:shard_amount"]}
{"id": "C57", "title": "Number grids behave the same in the parallel build", "statement": "The same sequence of calls on a number grid gives the same answers in the parallel or visualization build as in the sequential build.", "quantifier": "every call sequence, hash function and number of processors", "why_tests_cant": "The two builds are different code selected by feature flags; a test run exercises one of them, on one machine, with a few call sequences.", "anchors": ["src/engine/fields/dense_number_grid_2d.rs", "src/engine/fields/sparse_number_grid_2d.rs", "src/utils/dbdashmap.rs"]}
{"id": "C58", "title": "Iterating a number grid visits every value once", "statement": "iter_values and iter_values_unbuffered call the closure exactly once for every location that holds a value in the respective state, with that value, and for no other location; on the dense grid in increasing order of location.", "quantifier": "every grid state reached by API calls; every hash-map iteration order", "why_tests_cant": "Ranges over all grid contents and sizes and over the unspecified iteration order of hash maps.", "anchors": ["src/engine/fields/dense_number_grid_2d.rs:iter_values", "src/engine/fields/sparse_number_grid_2d.rs:iter_values"]}
{"id": "C59", "title": "Parallel object grids: concurrent set_object_location loses no object", "statement": "When several threads call set_object_location on one parallel grid at the same time, every object placed is found at its location once all calls have returned.", "quantifier": "every interleaving of every set of per-thread placement sequences", "why_tests_cant": "All schedules.", "anchors": ["src/engine/fields/dense_object_grid_2d.rs:set_object_location", "src/engine/fields/sparse_object_grid_2d.rs:set_object_location"]}
{"id": "C60", "title": "Parallel object grids: remove_object removes the object", "statement": "After remove_object(o) the object is found neither by get_location nor at any location, other objects are untouched, and the call does not panic.", "quantifier": "every history and object", "why_tests_cant": "History property.", "anchors": ["src/engine/fields/dense_object_grid_2d.rs:remove_object", "src/engine/fields/sparse_object_grid_2d.rs:remove_object"]}
{"id": "C61", "title": "Parallel object grids read what was placed", "statement": "Used by one thread, a parallel object grid returns from get_objects exactly the objects placed at the location in the last published epoch, like the sequential dense grid, and from get_location the location of the object's last placement; the two agree.", "quantifier": "every history of placements, removals, reads and lazy_updates, every processor count and hash function", "why_tests_cant": "History property.", "anchors": ["src/engine/fields/dense_object_grid_2d.rs:DenseGrid2D (parallel)", "src/engine/fields/sparse_object_grid_2d.rs:SparseGrid2D (parallel)"]}
{"id": "C62", "title": "Object grid iteration visits every object once", "statement": "iter_objects calls the closure exactly once for every object stored (once per copy), with the location where it is stored, the objects of a location in bag order.", "quantifier": "every reachable grid and hash-map order", "why_tests_cant": "All contents.", "anchors": ["src/engine/fields/dense_object_grid_2d.rs:iter_objects", "src/engine/fields/sparse_object_grid_2d.rs:iter_objects"]}
{"id": "C63", "title": "get_all_events lists exactly the scheduled agents", "statement": "get_all_events returns one agent per scheduled agent: a successful scheduling call adds the given agent, a successful dequeue removes exactly the agent with that id, failed calls and queries change nothing, and over a whole program the number of agents returned is the number of scheduling calls minus those dequeued or stopped.", "quantifier": "every schedule reached by API calls and steps", "why_tests_cant": "History property over all programs.", "anchors": ["src/engine/schedule.rs:get_all_events", "src/engine/schedule.rs:dequeue", "src/engine/schedule.rs:schedule_repeating"]}
{"id": "C64", "title": "Parallel object grids: the remaining queries agree with the history", "statement": "get(o) returns the object stored by the last placement in the published epoch; get_unbuffered(o) returns the object found in the bag of its current location, without panicking; iter_objects visits exactly the objects get_objects returns; get_empty_bags lists exactly the in-range cells in which nothing was placed during the published epoch.", "quantifier": "every history of placements, removals at a location, reads and lazy_updates, every processor count, hash function and Eq on objects", "why_tests_cant": "History property.", "anchors": ["src/engine/fields/dense_object_grid_2d.rs:get", "src/engine/fields/sparse_object_grid_2d.rs:get_unbuffered", "src/engine/fields/sparse_object_grid_2d.rs:get_empty_bags", "src/engine/fields/dense_object_grid_2d.rs:iter_objects"]}
{"id": "C65", "title": "Network: a history of calls behaves like the same history on a graph", "statement": "For every history of Network calls in which added nodes are new and their next id is free, and removals are made between published nodes joined at most once, no call panics and every answer (of add_edge, remove_edge, remove_incoming_edges, remove_outgoing_edges, remove_node, get_edge, get_edges, get_object, get_id) is the answer of an abstract graph that is edited by the same calls and published at update.", "quantifier": "every history, directed or not, every hash-map iteration order", "why_tests_cant": "All histories and iteration orders.", "anchors": ["src/engine/fields/network.rs"]}
{"id": "C66", "title": "Network: preferential attachment draws by degree", "statement": "When preferential_attachment_BA attaches a node, the candidates it draws from are exactly the nodes before it, each weighted with its degree in the network built so far.", "quantifier": "every node set, m and random stream", "why_tests_cant": "The weights are internal to a random choice; all sizes.", "anchors": ["src/engine/fields/network.rs:preferential_attachment_BA", "src/engine/fields/network.rs:preferential_attachment_BA_with_seed"]}
{"id": "C67", "title": "Network: get_edges answers for every known node", "statement": "get_edges(u) is Some list for every node known to the Network (empty if it has no edges), as the documentation of remove_all_edges says.", "quantifier": "every history", "why_tests_cant": "History property.", "anchors": ["src/engine/fields/network.rs:get_edges", "src/engine/fields/network.rs:remove_all_edges"]}
{"id": "C68", "title": "Network: Display prints the adjacency matrix", "statement": "Displaying a Network prints one row per node in the order of the ids, with 1 in column j of row i exactly when node i has an edge to node j.", "quantifier": "every history", "why_tests_cant": "History property.", "anchors": ["src/engine/fields/network.rs:fmt"]}
{"id": "C69", "title": "HNetwork: a history of calls behaves like the same history on a hypergraph", "statement": "For every history of HNetwork calls in which added nodes are new and their next id is free, hyperedges name no node twice, hyperedges are removed between nodes that have lists, and objects are removed only when their hyperedges are published, no call panics and every answer is the answer of an abstract hypergraph edited by the same calls and published at update.", "quantifier": "every history, every hash-set iteration order", "why_tests_cant": "All histories and iteration orders.", "anchors": ["src/engine/fields/hnetwork.rs"]}
{"id": "C70", "title": "Distributed GA: every generation is evaluated and bred from its own scores", "statement": "explore_ga_distributed_mpi! evaluates, generation by generation, exactly the individuals the genetic search is defined by: row i of a generation is the score of individual i of that generation, selection sees each individual with its own score, and the search stops when an individual of a generation reaches the desired fitness, when fewer than two are selected, or at the generation limit.", "quantifier": "every search (fitness, selection, crossover, mutation), every number of processes, every number of generations", "why_tests_cant": "All populations, sizes, process counts and histories of selection.", "anchors": ["src/explore/mpi/genetic.rs: explore_ga_distributed_mpi!"]}
{"id": "C71", "title": "Distributed GA: the reported best is a best evaluated individual", "statement": "The best fitness, generation, individual and row reported by explore_ga_distributed_mpi! belong to an evaluated individual that no evaluated individual beats.", "quantifier": "every search, number of processes and comparison that is a strict weak order", "why_tests_cant": "All searches and orders of ranks.", "anchors": ["src/explore/mpi/genetic.rs: explore_ga_distributed_mpi!"]}
{"id": "C72", "title": "Distributed GA: all processes return", "statement": "When the root process of explore_ga_distributed_mpi! returns, so does every other process.", "quantifier": "every search and number of processes", "why_tests_cant": "A hang depends on what the selection leaves in which generation.", "anchors": ["src/explore/mpi/genetic.rs: explore_ga_distributed_mpi!"]}
{"id": "C73", "title": "Field2D iteration visits every readable object once", "statement": "iter_objects calls the closure exactly once for every object readable since the last lazy_update (iter_objects_unbuffered: placed since it and not removed), and for nothing else, with the object's location.", "quantifier": "every field size, discretization, history", "why_tests_cant": "History property; the location passed is only visible for objects off the cell corners.", "anchors": ["src/engine/fields/field_2d.rs:iter_objects", "src/engine/fields/field_2d.rs:iter_objects_unbuffered", "src/engine/fields/field_2d.rs:not_discretize"]}
{"id": "C74", "title": "Field2D empty bags", "statement": "get_empty_bags returns the lower corner of exactly the cells that hold no readable object, each once; get_random_empty_bag returns one of them, and None only if there are none; a new field has (width/discretization)*(height/discretization) empty bags, as documented.", "quantifier": "every field size, discretization, history and random draw", "why_tests_cant": "History property.", "anchors": ["src/engine/fields/field_2d.rs:get_empty_bags", "src/engine/fields/field_2d.rs:get_random_empty_bag"]}
{"id": "C75", "title": "Kdtree neighbours are the touching blocks", "statement": "The neighbour list of a Kdtree process is increasing, contains only other processes, is mutual, and names exactly the processes whose block touches its own on the torus.", "quantifier": "every number of processes and field size", "why_tests_cant": "Unbounded number of processes; rounding decides about common corners.", "anchors": ["src/engine/fields/kdtree_mpi.rs:first_subdivision", "src/engine/fields/kdtree_mpi.rs:get_boundary_points", "src/engine/fields/kdtree_mpi.rs:get_block_boundary_points"]}
{"id": "C76", "title": "Kdtree halo agents reach every process they are near to", "statement": "An agent inserted within the halo distance of another process's block is addressed to that process when the halo is exchanged after the next lazy_update, and an agent is addressed to a process at most once per insertion.", "quantifier": "every number of processes, field size, halo distance, position and history", "why_tests_cant": "Depends on the geometry of all blocks and on the history.", "anchors": ["src/engine/fields/kdtree_mpi.rs:insert", "src/engine/fields/kdtree_mpi.rs:calculate_regions", "src/engine/fields/kdtree_mpi.rs:calculate_neighbor_regions", "src/engine/fields/kdtree_mpi.rs:message_exchange"]}
{"id": "C77", "title": "Kdtree storage is double buffered and its mail follows the history", "statement": "After any history of insert, insert_read, remove_object_location and lazy_update the readable agents are those inserted and not removed before the last lazy_update plus the ones insert_read since; the halo mail holds the agents of the previous step that are still there; the agents addressed to a process since the last update are handed to the exchange.", "quantifier": "every field size, discretization, history", "why_tests_cant": "History property.", "anchors": ["src/engine/fields/kdtree_mpi.rs:insert", "src/engine/fields/kdtree_mpi.rs:insert_read", "src/engine/fields/kdtree_mpi.rs:remove_object_location", "src/engine/fields/kdtree_mpi.rs:lazy_update", "src/engine/fields/kdtree_mpi.rs:message_exchange"]}
{"id": "C78", "title": "Kdtree neighbour query", "statement": "get_neighbors_within_distance returns exactly the readable agents other than the asking one within the distance on the torus, each once, and never panics; get_distributed_neighbors_within_relax_distance returns at least those.", "quantifier": "every field size, discretization, history, location, distance", "why_tests_cant": "Geometry with rounding, and history.", "anchors": ["src/engine/fields/kdtree_mpi.rs:get_neighbors_within_distance", "src/engine/fields/kdtree_mpi.rs:get_distributed_neighbors_within_relax_distance"]}
{"id": "C81", "title": "Csv files of plots", "statement": "When simulate! with the terminal has finished, every plot registered for csv by the end of a repetition's init has exactly one csv file for that repetition, with its axis labels as header and exactly the rows plotted to it in that repetition, in order, however the csv thread was scheduled; nothing else is in any file, and waiting for the csv thread ends.", "quantifier": "every sequence of addplot!/plot! calls in every repetition, every interleaving of the simulation and csv threads", "why_tests_cant": "The files depend on the interleaving of two threads and on the whole history of calls.", "anchors": ["src/lib.rs:simulate!", "src/lib.rs:plot!", "src/lib.rs:addplot!", "src/lib.rs:csv_recv"]}
{"id": "C79", "title": "A tab for every plot", "statement": "After every drawing of the terminal interface, each plot that exists has exactly one tab after Home which shows that plot; tabs are Home and the plots seen so far, and a tab never changes its position.", "quantifier": "every sequence of keys, messages and sets of plots (in any map order) at each drawing", "why_tests_cant": "History property over all key presses and unspecified hash map orders.", "anchors": ["src/utils/monitoring/ui.rs:draw", "src/utils/monitoring/ui.rs:draw_tab"]}
{"id": "C80", "title": "Performance chart", "statement": "The Home tab's chart of cpu and memory use holds the last samples in order, numbered by step, and every sample drawn, in particular the newest, lies within the chart's x axis.", "quantifier": "every sequence of keys and messages, every number of steps", "why_tests_cant": "The window moves only after a hundred steps; the claim is about every history.", "anchors": ["src/utils/monitoring/ui.rs:on_tick", "src/utils/monitoring/ui.rs:draw_charts"]}
{"id": "C85", "title": "Axes of a plot's tab", "statement": "Every point of a plot lies within the axes of its tab.", "quantifier": "every history of addplot!/plot! calls with f64 points", "why_tests_cant": "Ranges over all f64 points and histories, including rounding of the axis bounds.", "anchors": ["src/utils/monitoring/ui.rs:draw_tab", "src/lib.rs:plot!"]}
{"id": "C82", "title": "simulate! with the terminal runs the same simulation", "statement": "With the terminal interface on, simulate! runs the same repetitions and steps and ends in the same state as without it, as long as the user does not quit; the simulation thread always ends; after the user quits at most one more init and one more step are made; every message shown is one of the simulation; when end_condition has ended the last repetition the terminal closes and simulate! returns.", "quantifier": "every model, number of steps and repetitions, every interleaving of the simulation thread and the terminal thread", "why_tests_cant": "It must hold for every interleaving of the two threads and their mailboxes.", "anchors": ["src/lib.rs:simulate!", "src/utils/monitoring/ui.rs:UI"]}
{"id": "C83", "title": "Logs are kept and written once", "statement": "The log file written by simulate! holds each log marked to be stored exactly once, newest first, before the logs of earlier simulations, however the threads are scheduled; the Home tab lists all logs, newest first, and their number never decreases.", "quantifier": "every history of log! calls and repetitions, every interleaving with other threads", "why_tests_cant": "History property over interleavings.", "anchors": ["src/lib.rs:log!", "src/lib.rs:Log", "src/lib.rs:simulate!", "src/utils/monitoring/ui.rs:draw_charts"]}
{"id": "C84", "title": "Verdict of check_reproducibility!", "statement": "check_reproducibility! finds a model reproducible exactly when two executions of it have, at every step, the same agents in the same order, and it never panics.", "quantifier": "every model, reset function, number of steps, equality of agents and list of agent types", "why_tests_cant": "It ranges over all models and all pairs of executions.", "anchors": ["src/lib.rs:check_reproducibility!", "src/engine/schedule.rs:get_all_events"]}
{"id": "C86", "title": "Chart of repetitions", "statement": "With the terminal interface on, each finished repetition is reported to the repetitions chart exactly once and in order.", "quantifier": "every model, number of steps and repetitions, every interleaving of the simulation thread and the terminal thread", "why_tests_cant": "It must hold for every interleaving of the two threads.", "anchors": ["src/lib.rs:simulate!", "src/utils/monitoring/ui.rs:on_rep"]}
{"id": "C87", "title": "Parallel Field2D reads what was published", "statement": "With the parallel feature, after any sequence of calls on a Field2D, get_objects(loc) returns, in placement order, the objects placed in the bag of loc before the last lazy_update and since the one before (or what an update published over it), num_objects_at_location returns their number, get_location(o) and get(o) return the last published placement of an object equal to o, and num_objects the number of different objects having one. Placements made since are not visible. None of these calls panics, and with lazy_update only get_objects answers exactly like the sequential Field2D given the same calls.", "quantifier": "every field size, discretization and numeric type, every number of processors and hash function, every history of placements, publications (lazy_update and update) and queries, every location and object, every order in which hash maps are walked", "why_tests_cant": "The result depends on the whole history of placements and publications and on how keys fall into shards; tests look at a few histories on one machine.", "anchors": ["src/engine/fields/field_2d.rs: Field2D::new, set_object_location, get_objects, num_objects_at_location, get_location, get, num_objects, lazy_update, update (parallel)", "src/utils/dbdashmap.rs: DBDashMap"]}
{"id": "C88", "title": "Parallel Field2D: an object is read where it was last placed and only there", "statement": "With the parallel feature, after a publication an object is listed by get_objects exactly in the bag of the location get_location returns, and once.", "quantifier": "every history of placements and publications, every object and location", "why_tests_cant": "It fails only for particular histories (an object placed twice in a step, or moved between two calls of update) that a test must think of.", "anchors": ["src/engine/fields/field_2d.rs: set_object_location, get_objects, get_location, lazy_update, update (parallel)"]}
{"id": "C89", "title": "Parallel Field2D: neighbour queries answer like the sequential field and do not panic", "statement": "With the parallel feature, get_neighbors_within_distance and get_neighbors_within_relax_distance answer, for every location and distance, what the sequential Field2D answers after the same placements and publications: everything returned lies within the distance on the plane and what lies well within it is returned. They never panic.", "quantifier": "every history, location, distance, field size, discretization and size of the object type", "why_tests_cant": "The panic depends on how many objects happen to be published and on the product of area and squared distance; the equality ranges over all histories and all bag layouts.", "anchors": ["src/engine/fields/field_2d.rs: get_neighbors_within_distance, get_neighbors_within_relax_distance (parallel)"]}
{"id": "C90", "title": "Parallel Field2D: unbuffered queries see the placements being made", "statement": "With the parallel feature, get_location_unbuffered(o) returns the location of the last placement of o since the last lazy_update, None if there is none, and get_unbuffered(o) the object placed by it; neither panics.", "quantifier": "every history of placements, publications and queries, every object", "why_tests_cant": "Whether an object is in the write buffer depends on the whole history since the last publication.", "anchors": ["src/engine/fields/field_2d.rs: get_location_unbuffered, get_unbuffered (parallel)"]}
{"id": "C91", "title": "Parallel Field2D: placements made by several threads at once are all kept", "statement": "With the parallel feature, when several threads place objects at the same time and the field is then published, every placed object is in the bag it was placed in, nothing else is, its location is the one a thread gave it, and no thread panics.", "quantifier": "every history before, every number of threads, every list of placements of each thread, every interleaving of their accesses to the maps", "why_tests_cant": "An object is lost only in the interleavings where two threads both find the bag missing before either has inserted it.", "anchors": ["src/engine/fields/field_2d.rs: set_object_location, get_unbuffered (parallel)", "src/utils/dbdashmap.rs: get_write, insert"]}
{"id": "C92", "title": "Parallel Network: every history of calls behaves like edits to a graph", "statement": "With the parallel feature, for any history of add_node, add_edge, remove_edge, remove_all_edges, remove_incoming_edges, remove_outgoing_edges, remove_node, update_node, update and queries that does not hit one of the documented faults, no call panics, and each returns what the same history of edits to an abstract directed or undirected graph gives, where the queries see, for each node, what the last update published.", "quantifier": "every history, equality of nodes, hash, number of shards, iteration order of the maps", "why_tests_cant": "The outcome depends on what has been published and what has only been edited since, over the whole history of calls; tests fix a few histories.", "anchors": ["src/engine/fields/network.rs: Network (parallel)"]}
{"id": "C93", "title": "Parallel Network: queries show the last update", "statement": "With the parallel feature, get_edges, get_edge and get_object do not change between two updates, whatever is added or removed.", "quantifier": "every history of calls, every later calls without update, every node and id", "why_tests_cant": "The outcome depends on what has been published and what has only been edited since, over the whole history of calls; tests fix a few histories.", "anchors": ["src/engine/fields/network.rs: get_edges, get_edge, get_object (parallel)"]}
{"id": "C94", "title": "Parallel Network: remove_all_edges removes all edges", "statement": "With the parallel feature, after remove_all_edges and update no node has an edge, and all nodes are kept.", "quantifier": "every history before the call", "why_tests_cant": "The outcome depends on what has been published and what has only been edited since, over the whole history of calls; tests fix a few histories.", "anchors": ["src/engine/fields/network.rs: remove_all_edges (parallel)", "src/utils/dbdashmap.rs: clear, update"]}
{"id": "C95", "title": "Parallel Network: remove_node removes the node, its edges and nothing else", "statement": "With the parallel feature, after remove_node(u) and update u is unknown, its id answers nothing, no edge of another node leads to it, and all other nodes and edges are unchanged; a node added later does not inherit anything from it.", "quantifier": "every history before the call, every node, every iteration order", "why_tests_cant": "The outcome depends on what has been published and what has only been edited since, over the whole history of calls; tests fix a few histories.", "anchors": ["src/engine/fields/network.rs: remove_node (parallel)"]}
{"id": "C96", "title": "Parallel Network: remove_edge removes exactly that edge", "statement": "With the parallel feature, remove_edge(u, v) returns the edge joining u and v and, after an update, that edge is gone and every other one is unchanged.", "quantifier": "every history before the call, every pair of nodes", "why_tests_cant": "The outcome depends on what has been published and what has only been edited since, over the whole history of calls; tests fix a few histories.", "anchors": ["src/engine/fields/network.rs: remove_edge (parallel)"]}
{"id": "C97", "title": "Parallel Network: preferential attachment replaces the edges by the generated ones", "statement": "With the parallel feature, after preferential_attachment_BA(node_set, m) on a network whose nodes are node_set, every node shows exactly the links that were drawn for it: the first two nodes joined, and each later one joined to min(m, its position) different earlier ones.", "quantifier": "every history before the call, every node list, m and outcome of the random draws", "why_tests_cant": "The outcome depends on what has been published and what has only been edited since, over the whole history of calls; tests fix a few histories.", "anchors": ["src/engine/fields/network.rs: preferential_attachment_BA, preferential_attachment_BA_with_seed (parallel)"]}
{"id": "C98", "title": "Parallel Network: add_prob_edge joins a node to nodes drawn by their degree", "statement": "With the parallel feature, add_prob_edge(u, n) adds edges from u to at most n different other nodes, drawn from the published nodes with weight their published number of edges, and changes nothing else.", "quantifier": "every history before the call, every node and n, every outcome of the draw, every iteration order", "why_tests_cant": "The outcome depends on what has been published and what has only been edited since, over the whole history of calls; tests fix a few histories.", "anchors": ["src/engine/fields/network.rs: add_prob_edge (parallel)"]}
{"id": "C99", "title": "Parallel Network: undirected edges are shown at both ends", "statement": "With the parallel feature, in an undirected network after an update the edges from u to v and those from v to u carry the same labels and weights in the same order.", "quantifier": "every history, every two nodes", "why_tests_cant": "The outcome depends on what has been published and what has only been edited since, over the whole history of calls; tests fix a few histories.", "anchors": ["src/engine/fields/network.rs: add_edge, remove_edge, remove_all_edges, update (parallel)"]}
{"id": "C100", "title": "Genetic search on AWS: the work is divided evenly", "statement": "In every generation of explore_ga_aws! the lambda functions together get every individual of the population exactly $reps times, in order, and the numbers of individuals of any two functions differ by at most one.", "quantifier": "every population, number of repetitions and positive number of functions", "why_tests_cant": "Which individuals are evaluated, and what is reported, depends on the whole history of the search, on the order in which messages arrive and on user functions; tests fix a few.", "anchors": ["src/explore/aws/genetic.rs: explore_ga_aws!"]}
{"id": "C101", "title": "Genetic search on AWS: the rows returned are the evaluations made", "statement": "explore_ga_aws! does not panic, and the rows it returns are, generation by generation, the evaluations the functions made: generation, index, fitness and individual of each, every individual $reps times, until the generation limit, the desired fitness or a selection of fewer than two.", "quantifier": "every user function, every population, every order of arrival and every queue behaviour", "why_tests_cant": "Which individuals are evaluated, and what is reported, depends on the whole history of the search, on the order in which messages arrive and on user functions; tests fix a few.", "anchors": ["src/explore/aws/genetic.rs: explore_ga_aws!"]}
{"id": "C102", "title": "Genetic search on AWS: the best individual reported is the best found", "statement": "The best fitness explore_ga_aws! reports is not exceeded by any row, and it is the fitness of a row with the reported individual and generation.", "quantifier": "every search on every network", "why_tests_cant": "Which individuals are evaluated, and what is reported, depends on the whole history of the search, on the order in which messages arrive and on user functions; tests fix a few.", "anchors": ["src/explore/aws/genetic.rs: explore_ga_aws!"]}
{"id": "C103", "title": "Genetic search on AWS: repetitions belong to one individual", "statement": "With $reps repetitions an individual is one candidate for the selection, judged on all of its repetitions, and the number of individuals does not depend on $reps.", "quantifier": "every search whose selection and crossover keep the number of individuals", "why_tests_cant": "Which individuals are evaluated, and what is reported, depends on the whole history of the search, on the order in which messages arrive and on user functions; tests fix a few.", "anchors": ["src/explore/aws/genetic.rs: explore_ga_aws!"]}
{"id": "C104", "title": "The window runs the simulation", "statement": "Opening a simulation in a window and playing it makes the same schedule and state as simulate! with as many steps as ticks were made while not paused, and ends when end_condition says so; pausing changes nothing.", "quantifier": "every simulation, every graphics code that leaves the simulation alone, every sequence of frames, ticks and clicks other than Stop", "why_tests_cant": "What is shown depends on the whole history of ticks and clicks, on the user's graphics code and on iteration orders; tests fix a few.", "anchors": ["src/visualization/visualization.rs: Visualization::start", "src/visualization/systems/simulation_system.rs: simulation_system", "src/visualization/systems/ui_system.rs: ui_system"]}
{"id": "C105", "title": "Stop restarts the simulation", "statement": "After a click on Stop, at any point of any history, the simulation is paused, the state has been reset and initialised with an empty schedule, and what follows is what would follow from a fresh start, in the simulation and on the screen.", "quantifier": "every history before and after the click", "why_tests_cant": "What is shown depends on the whole history of ticks and clicks, on the user's graphics code and on iteration orders; tests fix a few.", "anchors": ["src/visualization/systems/ui_system.rs: ui_system"]}
{"id": "C106", "title": "Sprites follow the agents", "statement": "The window shows one sprite for each scheduled agent that has a render, at the place, with the image and with the visibility that the render gives for the current state; agents that are gone are hidden.", "quantifier": "every simulation, every render and every history", "why_tests_cant": "What is shown depends on the whole history of ticks and clicks, on the user's graphics code and on iteration orders; tests fix a few.", "anchors": ["src/visualization/visualization_state.rs: setup_graphics", "src/visualization/systems/renderer_system.rs: renderer_system", "src/visualization/agent_render.rs: AgentRender"]}
{"id": "C107", "title": "Sprites of object grids follow the objects", "statement": "A grid in a window shows one sprite for each object of the grid at the object's location, with its rotation and image.", "quantifier": "every grid reachable by calls, every iteration order, every sequence of states", "why_tests_cant": "What is shown depends on the whole history of ticks and clicks, on the user's graphics code and on iteration orders; tests fix a few.", "anchors": ["src/visualization/fields/object_grid_2d.rs: RenderObjectGrid2D"]}
{"id": "C108", "title": "Lines of networks follow the nodes", "statement": "The line of an edge that is not static joins the current locations of its ends; a static one stays; there is one line for each edge.", "quantifier": "every sequence of states of every network", "why_tests_cant": "What is shown depends on the whole history of ticks and clicks, on the user's graphics code and on iteration orders; tests fix a few.", "anchors": ["src/visualization/fields/network.rs: NetworkRender"]}
{"id": "C109", "title": "The texture of a number grid shows its cells", "statement": "The texture has four bytes for each cell, the colour of cell (x, y) at column x and row height - 1 - y from the top.", "quantifier": "every width and height up to 2^31 and every colouring", "why_tests_cant": "What is shown depends on the whole history of ticks and clicks, on the user's graphics code and on iteration orders; tests fix a few.", "anchors": ["src/visualization/fields/number_grid_2d.rs: BatchRender::texture"]}
{"id": "C110", "title": "Emoji images are loaded once", "statement": "Each image file is loaded at most once, at the first request for its code; equal codes get equal handles, those of the file emojis/<code>.png.", "quantifier": "every sequence of requests", "why_tests_cant": "What is shown depends on the whole history of ticks and clicks, on the user's graphics code and on iteration orders; tests fix a few.", "anchors": ["src/visualization/asset_handle_factory.rs: AssetHandleFactory"]}
{"id": "C111", "title": "Csv files written by write_csv read back exactly", "statement": "After write_csv the file, read by load_csv! or any reader of csv, has the field names and then the rows, field for field and byte for byte; in a dataframe each value stands under its own name.", "quantifier": "every list of names, every list of rows, every choice of quoting, every size of the buffer", "why_tests_cant": "Fields may hold any text, including separators, quotes and line ends; tests try a few.", "anchors": ["src/lib.rs: write_csv", "src/lib.rs: load_csv!", "src/explore/model_exploration.rs: build_dataframe!"]}
{"id": "C112", "title": "load_csv! reads every csv file", "statement": "load_csv! returns the requested columns of all records of a csv file, whatever its quoting, line ends and blank lines, and panics if and only if a record has a wrong number of fields or one that does not parse.", "quantifier": "every text that represents a list of records, every list of parsers", "why_tests_cant": "The texts that represent the same records are infinitely many.", "anchors": ["src/lib.rs: load_csv!"]}
{"id": "C113", "title": "The result of write_csv tells whether the file was written", "statement": "write_csv returns Ok if and only if all rows are in the file.", "quantifier": "every list of rows, every size of the buffer, every point at which the disk is full", "why_tests_cant": "The disk may fill up at any byte.", "anchors": ["src/lib.rs: write_csv"]}
{"id": "C114", "title": "simulate_mpi! completes and runs the same simulation in each process", "statement": "Every process runs the repetitions that simulate! runs, all processes complete, and process 0 returns one result for each repetition.", "quantifier": "every simulation, every number of processes, steps and repetitions, every initial state of each process", "why_tests_cant": "Whether processes wait for each other for ever depends on when each one's simulation ends.", "anchors": ["src/lib.rs: simulate_mpi!"]}
{"id": "C115", "title": "simulate_old! completes and runs the same simulation", "statement": "simulate_old! runs the repetitions that simulate! runs and returns one result for each, whatever the durations.", "quantifier": "every simulation, every number of steps and repetitions, every duration", "why_tests_cant": "Durations, and numbers of steps up to 2^64, cannot be exhausted by tests.", "anchors": ["src/lib.rs: simulate_old!"]}
{"id": "C116", "title": "The order of agents that are due together does not matter if they do not disturb each other", "statement": "If no agent's turn changes what another agent's turn does, the effects of two turns commute, and the hooks of the state do not depend on the order in which agents are listed, then how the queue orders agents with equal time and ordering does not show in the number of steps, the state or what is scheduled.", "quantifier": "every such simulation, every number of steps and repetitions, every two ways of breaking ties", "why_tests_cant": "A test sees one of the possible orders, of one model.", "anchors": ["src/engine/schedule.rs: Schedule::step", "src/engine/priority.rs: Priority", "src/lib.rs: simulate!"]}
{"id": "C117", "title": "Parallel and sequential builds agree for agents that do not disturb each other", "statement": "For simulations whose agents do not disturb each other and are all scheduled for the same time, the parallel build reaches the states of the sequential build, whatever the interleaving of its threads.", "quantifier": "every such simulation, number of threads, interleaving, number of steps and tie-break", "why_tests_cant": "Interleavings of threads cannot be enumerated by running the program.", "anchors": ["src/engine/schedule.rs: Schedule::step (both builds)"]}
{"id": "C118", "title": "Simulations on double-buffered fields do not depend on the order of agents", "statement": "A simulation whose agents read only what was published at the end of the last step, each writing its own cell of a number grid or placing itself in a Field2D, ends in the same state however ties between agents are broken.", "quantifier": "every rule of the agents, grid or field, number of agents, steps and repetitions, every two ways of breaking ties", "why_tests_cant": "All rules and all orders of agents are quantified over.", "anchors": ["src/engine/fields/sparse_number_grid_2d.rs", "src/engine/fields/field_2d.rs", "src/engine/schedule.rs: Schedule::step", "tests/model/flockers"]}
{"id": "C119", "title": "A closure given to an iteration may use the field it iterates over", "statement": "A closure given to iter_objects or iter_values may hold the same field and call its methods: read it, place and remove objects or values, iterate over it again. The iteration neither panics because of that nor is disturbed by it: it does what one gets by first taking the list of published items and then calling the closure on each of them in that order, outside of the iteration.", "quantifier": "every sequential grid and Field2D, every content of both buffers, every iteration order of the hash maps, every closure, including ones that decide from what they read and that nest iterations", "why_tests_cant": "the closure is arbitrary user code and whether it runs into a borrow of the field depends on which methods it calls and on the contents of the field", "anchors": ["src/engine/fields/dense_object_grid_2d.rs: iter_objects, iter_objects_unbuffered, apply_to_all_values", "src/engine/fields/sparse_object_grid_2d.rs: iter_objects, iter_objects_unbuffered, apply_to_all_values", "src/engine/fields/dense_number_grid_2d.rs: iter_values, iter_values_unbuffered, apply_to_all_values", "src/engine/fields/sparse_number_grid_2d.rs: iter_values, iter_values_unbuffered, apply_to_all_values", "src/engine/fields/field_2d.rs: iter_objects, get_neighbors_within_relax_distance"]}
{"id": "C120", "title": "A closure given to an unbuffered iteration may change what is being written", "statement": "A closure given to iter_objects_unbuffered or iter_values_unbuffered may place and remove objects or values in the same field; the iteration visits the items that were written when it started, as if their list had been taken first. The dense and the sparse grids agree on this.", "quantifier": "every sequential grid and Field2D, every content of both buffers, every iteration order of the hash maps, every closure", "why_tests_cant": "the closure is arbitrary user code; the claim is about all of them and about all contents of the write buffer", "anchors": ["src/engine/fields/dense_object_grid_2d.rs: iter_objects, iter_objects_unbuffered, apply_to_all_values", "src/engine/fields/sparse_object_grid_2d.rs: iter_objects, iter_objects_unbuffered, apply_to_all_values", "src/engine/fields/dense_number_grid_2d.rs: iter_values, iter_values_unbuffered, apply_to_all_values", "src/engine/fields/sparse_number_grid_2d.rs: iter_values, iter_values_unbuffered, apply_to_all_values", "src/engine/fields/field_2d.rs: iter_objects_unbuffered"]}
{"id": "C121", "title": "A closure given to apply_to_all_values may look at the other buffer", "statement": "A closure given to apply_to_all_values may look at the buffer that is not being worked on: at the written state with READ, at the published state with WRITE and READWRITE. The call then has the same effect as with the plain function that the closure computes on the grid as it is before the call.", "quantifier": "every sequential grid, every content of both buffers, every iteration order of the hash maps, each of READ, WRITE and READWRITE, every closure that reads the other buffer", "why_tests_cant": "the closure is arbitrary user code and the borrows differ between the grids and the options", "anchors": ["src/engine/fields/dense_object_grid_2d.rs: iter_objects, iter_objects_unbuffered, apply_to_all_values", "src/engine/fields/sparse_object_grid_2d.rs: iter_objects, iter_objects_unbuffered, apply_to_all_values", "src/engine/fields/dense_number_grid_2d.rs: iter_values, iter_values_unbuffered, apply_to_all_values", "src/engine/fields/sparse_number_grid_2d.rs: iter_values, iter_values_unbuffered, apply_to_all_values"]}
{"id": "C122", "title": "A field-based simulation is synchronous from its first step", "statement": "In a simulation whose init places every agent in a Field2D and schedules it at time 0, whose agents in their step look for neighbours, compute new data and place themselves, and whose update calls lazy_update: in every step each scheduled agent takes exactly one turn and sees the field as it was published at the end of the previous step (in the first step: as init placed the agents); afterwards the readable objects are exactly the new versions of those agents, each once and in the cell of its own location; the agents that have not stopped are the ones scheduled for the next step. No call panics as long as the agents stay in the field, nobody is lost, doubled or left behind as a ghost, also after several repetitions of simulate! on the same state.", "quantifier": "every arithmetic (f32 included), field size, set of agents, rule, radius, stop and end condition, number of steps and repetitions, and tie-break of the scheduler", "why_tests_cant": "the guarantee combines the scheduler, the double buffering and the user's hooks over runs of any length and any order of agents due together; the tests run one flockers configuration once and check no positions", "anchors": ["src/engine/schedule.rs: step, schedule_repeating", "src/engine/fields/field_2d.rs: set_object_location, lazy_update, get_neighbors_within_distance, get_objects, iter_objects", "src/lib.rs: simulate!", "tests/model/flockers/state.rs: init, update", "tests/model/flockers/bird.rs: step"]}
{"id": "C123", "title": "Every scheduled agent gets its turn", "statement": "An agent that has been scheduled is run after finitely many calls of Schedule::step, whatever the other agents do and however ties are broken, and a repeating agent that never reports is_stopped is run again and again for ever.", "quantifier": "every schedule, every agent behaviour, every sequence of steps and every tie-break", "why_tests_cant": "It is a liveness property of unbounded runs; it fails only where f32 time stops advancing, after 2^24 time units, or for hooks that keep scheduling at the current time.", "anchors": ["src/engine/schedule.rs:Schedule::step", "src/engine/schedule.rs:Schedule::schedule_once", "src/engine/priority.rs:Priority::cmp"]}
{"id": "C124", "title": "A grid-based simulation is synchronous from its first step", "statement": "In a simulation whose init places every agent on a DenseGrid2D or a SparseGrid2D and schedules it at time 0, whose agents in their step look at cells, compute new data and place themselves, and whose update calls lazy_update: in every step each scheduled agent takes exactly one turn and sees the grid as it was published at the end of the previous step; afterwards the readable bags hold exactly the new versions of those agents, get_location finds every agent at its own location, iter_objects visits each once, and the agents that have not stopped are scheduled again. No call panics, and nobody is lost or doubled, also after several repetitions of simulate! on the same state. Agents must be told apart by ==.", "quantifier": "every grid size, set of agents that == tells apart, cells looked at, rule, stop and end condition, number of steps and repetitions, tie-break of the scheduler and hash map order; on the dense grid, agents that stay on the grid", "why_tests_cant": "the guarantee combines the scheduler, the double buffering and the user's hooks over runs of any length and any order of agents due together", "anchors": ["src/engine/schedule.rs: step, schedule_repeating", "src/engine/fields/dense_object_grid_2d.rs: set_object_location, lazy_update, get_objects, get_location, iter_objects", "src/engine/fields/sparse_object_grid_2d.rs: set_object_location, lazy_update, get_objects, get_location, iter_objects", "src/lib.rs: simulate!"]}
{"id": "C125", "title": "Nobody waits for a lock for ever", "statement": "However the threads of a running simulation are interleaved (the model, the terminal, the csv writer, the monitor, and in a parallel build the workers of the schedule), there is always one that can go on until all are done: the locks behind plot!, addplot!, log!, description!, schedule_once, schedule_repeating, the steps of the schedule and the methods of the parallel fields never block each other for ever.", "quantifier": "every number of threads, every sequence of calls of the macros and scheduling functions (with calls in the arguments of calls), every interleaving", "why_tests_cant": "A deadlock needs one particular interleaving of several threads; tests run few of them and a passing run says nothing about the others.", "anchors": ["src/lib.rs: simulate!, plot!, addplot!, log!, description!", "src/engine/schedule.rs: Schedule (parallel): schedule_once, schedule_repeating, step", "src/utils/monitoring/ui.rs: UI::draw, UI::on_tick", "src/utils/dbdashmap.rs: insert, get_write, apply_to_all_values_write, apply_to_all_values_read_write", "src/engine/fields/field_2d.rs (parallel): get_unbuffered"]}
{"id": "C126", "title": "No agent is lost or doubled in a distributed simulation", "statement": "In a simulation distributed over MPI processes on a Kdtree, whose processes insert and schedule their agents at init, exchange halos in before_step, send the agents that left the block in after_step (dequeuing them and scheduling the ones that arrive) and call lazy_update in update: whatever the order in which processes and messages make progress, after every step the agents in the schedules of all processes together are the agents that were born, each exactly once, each with the process whose block it is in; no process panics; in every step each agent moves exactly once and sees the agents of its process and those in the halos of the neighbours as they were when the step began; and the processes agree on the time.", "quantifier": "every number of processes (at least two), field and block sizes, agents with distinct keys, rules, numbers of steps, tie-breaks of the queues, and schedules of the processes and of the network", "why_tests_cant": "Agents are lost or doubled only in particular combinations of moves over block borders, ties in the queues and orders of messages, over runs of any length and with any number of processes.", "anchors": ["src/engine/fields/kdtree_mpi.rs: create_tree, insert, insert_read, message_exchange, get_block_by_location, get_distributed_neighbors_within_relax_distance, lazy_update", "src/engine/schedule.rs: distributed_schedule_repeating, dequeue, step", "src/lib.rs: simulate_mpi!"]}
{"id": "C127", "title": "Parallel simulations are synchronous, conserve agents and agree with the sequential build", "statement": "In the parallel build, a simulation whose state places and schedules every agent in init, whose update calls lazy_update, and whose agents look at a grid of bags or at their neighbours in a field, compute and place themselves, is synchronous for every number of threads and every interleaving: no call panics, after each step the space shows exactly one new version of every agent that was scheduled, computed from what was visible when the step began, and exactly those that have not stopped are scheduled again. simulate! makes the requested repetitions and stops each at the first positive end_condition. If the agents do not depend on the order inside bags, the population after any number of steps is the same as in the sequential build. False for simulations in which everybody stops: the parallel build then ends the whole process, so the remaining repetitions never happen.", "quantifier": "all agents, rules, looks, radii, equality/hash functions, numbers of processors and threads, tie-breaks, interleavings, numbers of steps and repetitions", "why_tests_cant": "a test sees one interleaving of one model; the property ranges over all rules, interleavings and histories", "anchors": ["src/engine/schedule.rs parallel Schedule::step L127-222", "src/lib.rs simulate! L1147-1200", "src/engine/fields/dense_object_grid_2d.rs", "src/engine/fields/sparse_object_grid_2d.rs", "src/engine/fields/field_2d.rs", "tests/model/flockers/state.rs L43-76"]}
{"id": "C128", "title": "The number of agents of a field", "statement": "The public nagents of Field2D and Kdtree is, as documented, the number of agents inside the field, and density_estimation is that number divided by the number of cells: it counts the objects placed and not removed before the first lazy_update, equals the number of readable objects right after it, and follows the field from then on. False for the last part: after the first lazy_update neither value ever changes again, whatever is placed or removed.", "quantifier": "every history of placements, removals, updates and queries inside the field, every object type and equality, every field size", "why_tests_cant": "The counters must agree with the contents after every history; a test checks a few short ones.", "anchors": ["src/engine/fields/field_2d.rs: Field2D::nagents, density_estimation, set_object_location, remove_object_location, lazy_update (L276-292, L838-921)", "src/engine/fields/kdtree_mpi.rs: nagents, insert, insert_read, remove_object_location, lazy_update (L52-53, L519-575, L858-880)"]}
{"id": "C129", "title": "Agents returned by before_step and after_step", "statement": "The agents an agent returns from before_step or after_step, each with an ordering and a repeating flag (ScheduleOptions), are added to the schedule with these options, so that they take part in later steps. False: both builds drop what is returned, so after any history the schedule, the state and the calls are the same whatever agents are returned.", "quantifier": "all agents, all returned lists and options, all histories of steps and schedule calls, all tie-breaks; in the parallel build all numbers of threads and interleavings", "why_tests_cant": "that nothing returned is ever scheduled is a statement about every history and every interleaving", "anchors": ["src/engine/agent.rs Agent::before_step, after_step L22-39", "src/engine/schedule.rs ScheduleOptions L418-423", "src/engine/schedule.rs Schedule::step L184-210 (parallel), L395-408 (sequential)"]}
{"id": "C130", "title": "Steps in which an agent panics", "statement": "When a method of an agent panics, everything up to the panic happens as it would without it, the panic leaves step, the step is not counted, no agent is called afterwards in this step, and no thread waits for ever. The agents that are not due, and those that finished their turn and are not stopped, stay scheduled, and so do the due agents that have not had their turn. False for the last: the due agents whose turn had not come are no longer scheduled, so a program that catches the panic never runs them again.", "quantifier": "all agents, all panicking methods (before_step, step, after_step, is_stopped, clone), all schedules and tie-breaks; in the parallel build all numbers of threads and interleavings", "why_tests_cant": "the panic may come at every point of every agent's turn and under every interleaving", "anchors": ["src/engine/schedule.rs Schedule::step L127-222 (parallel), L347-413 (sequential)", "src/engine/agent.rs L7-40", "src/engine/agentimpl.rs L14"]}
{"id": "C131", "title": "The picture in the window", "statement": "After the start and after any resizes the simulation fills exactly the part of the window beside the 300-pixel panel on the left, every point of it once; the cells of the texture of a number grid lie where the sprites of objects in these cells are drawn; the simulation has the dimensions given to with_simulation_dimensions and the window those given to with_window_dimensions. False: with_window_dimensions does not change the size of the window and its least size is not enforced; in a window 300 pixels wide the camera is at no place at all (NaN) and in a narrower one the picture is mirrored; the first drawing of an object's sprite is one unit too low.", "quantifier": "all sequences of builder calls, all histories of window resizes, all points of the window, all grid sizes and cells", "why_tests_cant": "the camera depends on the whole history of resizes, and the claim is about every point", "anchors": ["src/visualization/visualization.rs Visualization::with_window_dimensions, with_simulation_dimensions L39-51, setup L79-134", "src/visualization/systems/init_system.rs L29-50", "src/visualization/systems/camera_system.rs L11-29", "src/visualization/fields/number_grid_2d.rs L69", "src/visualization/fields/object_grid_2d.rs L66, L117-118"]}
{"id": "C132", "title": "The number of threads asked for on the command line", "statement": "In the parallel build, a schedule made by Schedule::new has as many threads as the number given with --nt, one thread for each processor if the value is not a number of the machine's size, and one thread without --nt; the program runs with every number. False for --nt 0: every step in which some agent is scheduled panics.", "quantifier": "all values of the option, all numbers of processors, all schedules and interleavings", "why_tests_cant": "it ranges over all texts and numbers", "anchors": ["src/engine/schedule.rs THREAD_NUM L18-45, Schedule::new, with_threads L79-98, step L127-168"]}
{"id": "C133", "title": "The speed slider", "statement": "In the window, the time between two steps is the one the user last chose with the slider (from 0.1 to 250 steps per second), up to one nanosecond, or that of 64 steps per second if the slider was never touched; it stays the same however many frames are drawn, the slider goes on showing the chosen value up to a ten-thousandth, and drawing the panel never panics.", "quantifier": "every sequence of frames, in each of which the slider is left alone or set to any f64 value it offers", "why_tests_cant": "Every frame divides twice in f64 and rounds to nanoseconds; that none of the ten billion possible times drifts, and that no chosen value is lost, cannot be enumerated frame by frame.", "anchors": ["src/visualization/systems/ui_system.rs: ui_system (L53-L60)", "src/visualization/visualization.rs: setup (L127)"]}
{"id": "C134", "title": "Panics of the hooks of the state", "statement": "If a hook of the state (update, before_step or after_step) panics during a step and the program catches the panic, everything done before stands and no agent is lost: after a panic of update(0) the schedule is as before the step; after one of before_step it is what the hook's own calls made of it, no agent has been called and the step is not counted; after one of after_step every agent has had its turn and is scheduled as if the hook had returned, but the step is not counted; after one of the last update the step is complete. A program may go on after any number of such panics: a repeating agent stays scheduled until it says it is stopped or is dequeued.", "quantifier": "every program, queue, schedule state, tie-break, number of threads and interleaving, every history of calls and steps with panics of hooks anywhere in it", "why_tests_cant": "The panic can come from any hook, after any calls the hook made of the schedule, in any step of any history; what is left behind must be right for all of them.", "anchors": ["src/engine/schedule.rs: Schedule::step (L127-L221, L347-L413)", "src/engine/state.rs: State (L47-L63)"]}
{"id": "C135", "title": "The labels of the panel and the picture of a number grid", "statement": "In the window, the label of every frame shows the number of steps made since the start or the last click on Stop, and the number of entities shown stays the same until Stop is clicked if the graphics code issues no commands (it is not the number of agents). The picture of a number grid that is drawn in batches always shows the last state drawn: if every start (the first and each click on Stop) renders the grid exactly once and nothing else renders it, drawing never panics and there is exactly one picture; drawing panics exactly if the number of pictures rendered since the last start is not one.", "quantifier": "every program, graphics code, sequence of frames with any numbers of ticks and any clicks; every sequence of starts, renders and draws of a number grid", "why_tests_cant": "Clicks and ticks can interleave in any order for any length of time; a label or picture may go wrong only after a particular history of stops and restarts.", "anchors": ["src/visualization/systems/ui_system.rs: ui_system (L31-L106)", "src/visualization/fields/number_grid_2d.rs: BatchRender::render, BatchRender::batch_render (L61-L101)"]}
{"id": "C136", "title": "Locations outside a dense grid, and sizes of dense grids", "statement": "A program that uses dense grids with any locations panics exactly if the number x*height+y of one of its locations is negative or not below width*height; otherwise its answers and the grid are those of the program in which each location is replaced by the cell with that number (a location inside the grid is its own cell; one above the top of a column is a cell of a following column, and is not refused). As long as width*height is a 32-bit number, creating a dense grid panics exactly if one size is negative and the other positive, and two negative sizes make the same grid as their absolute values.", "quantifier": "every size, every history of calls with any locations (without random empty cells; for object grids also without update and apply_to_all_values), every type of values and equality", "why_tests_cant": "Locations and sizes are arbitrary 32-bit numbers, and the effect of an outside location shows only in what later calls read at some other cell.", "anchors": ["src/engine/fields/dense_number_grid_2d.rs: DenseNumberGrid2D::new, get_value, set_value_location (L112-L126, L350-L380, L492-L530)", "src/engine/fields/dense_object_grid_2d.rs: DenseGrid2D::new, get_objects, set_object_location, remove_object_location (L201-L214, L507-L561)"]}
{"id": "C137", "title": "Populations with births and deaths in a double-buffered space", "statement": "In a simulation of the sequential or the parallel build whose agents live on a DenseGrid2D or SparseGrid2D or in a Field2D that update publishes with lazy_update, whose after_step looks at the published space, makes new agents, places each and schedules it with schedule_repeating(agent, schedule.time + 1.0, 0), and whose agents may stop: no call panics; the population found in the space after a step is exactly one new version of every agent that was scheduled plus the agents born in the step, all computed from what was published when the step began, whatever the order in which agents act; scheduled afterwards are exactly the new versions that have not stopped and all newborn agents, which act from the next step on; every agent ever made is scheduled exactly once or has stopped, and if nobody stops all of them are scheduled. In the parallel build a step can be completed from any point of any interleaving, and ends the process only if nobody is scheduled.", "quantifier": "every grid or field size, every arithmetic of the field, set of first agents, rule of movement, rule of births (also from an empty population), rule of stopping, number of steps below 2^64, tie-break of the queue in every step, in the parallel build every number of threads, interleaving and hash function, while fewer than 2^32 agents have been made", "why_tests_cant": "A newborn agent that acts one step too early, an agent that is lost because two share an id, or a placement that is published too late shows only for particular populations, rules and tie-breaks.", "anchors": ["src/engine/schedule.rs: Schedule::schedule_repeating (L295-L303), Schedule::step (L347-L413)", "src/engine/schedule.rs: parallel Schedule::schedule_repeating (L110-L117), Schedule::step (L127-L221)", "src/engine/state.rs: State::init, update, after_step (L47-L58)", "src/engine/agent.rs: Agent::is_stopped (L18)", "src/engine/fields/dense_object_grid_2d.rs: set_object_location, get_objects, lazy_update", "src/engine/fields/sparse_object_grid_2d.rs: set_object_location, get_objects, lazy_update", "src/engine/fields/field_2d.rs: set_object_location, get_objects, get_neighbors_within_distance, lazy_update"]}
{"id": "C138", "title": "Choosing how an exploration is computed", "statement": "explore! and evolutionary_search! with a ComputingMode return, if they return anything, what the exploration of the mode asked for gave; without the feature aws they return rows or panic, and never return without having explored. The parallel mode works without any feature, the distributed one with distributed_mpi, the cloud with aws (as documented; false of the code: with aws the macros are not compiled because the cloud arm has another type, the parallel mode panics with distributed_mpi, and the cloud never explores). Whatever the mode and the features, explore! returns in some order the inputs and outputs that the sequential exploration, which is the default, returns: one row per configuration and repetition, if a simulation starts by resetting its state.", "quantifier": "every combination of features of the calling crate, every mode or none, every list of inputs, number of repetitions and processes, every simulation and source of randomness", "why_tests_cant": "A test binary is built with one set of features; the agreement of the modes ranges over all inputs, simulations and numbers of processes.", "anchors": ["src/explore/model_exploration.rs: explore! (L57-L152)", "src/explore/genetic.rs: evolutionary_search! (L203-L313)", "src/lib.rs: ComputingMode (L456-L466)"]}
{"id": "C139", "title": "The shape of an arrow", "statement": "An arrow between two different points is drawn as the shaft from the first to the second point and, from the second point and back to it, two lines of the length given, which are the direction back along the shaft turned by the angle given to either side. An arrow from a point to itself is drawn as if it came from the left.", "quantifier": "every two points, length and angle, as real numbers", "why_tests_cant": "The angle of the shaft is computed by cases on the quadrant; a wrong sign shows only for some directions, and the points range over a continuum.", "anchors": ["src/visualization/utils/arrow.rs: Arrow, Geometry::add_geometry (L8-L40)"]}
