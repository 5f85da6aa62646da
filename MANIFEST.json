{"claims": [
{"property": "C01", "status": "proved", "theorems": ["C01_step_runs_earliest", "C01_ids_always_unique"], "note": "Every queue, user code and tie-break choice. Queue entries with NaN times are excluded (see C07_nan_refuted)."},
{"property": "C02", "status": "proved", "theorems": ["C02_requeue"], "note": "Queue after the agents' turns = waiting events unchanged + repeating, non-stopped events that ran, at their time + 1.0 with the same ordering."},
{"property": "C03", "status": "proved", "theorems": ["C03_hook_protocol"], "note": "Any program of API calls and steps; step counter below 2^64."},
{"property": "C04", "status": "proved", "theorems": ["C04_bookkeeping", "C04_diary", "C04_parallel_diary", "C04_wrap_refuted"], "note": "C04_bookkeeping is the property as stated (up to 2^32 scheduling calls, no schedule_once). C04_diary and C04_parallel_diary cover every history of both builds without hypotheses, with schedule_once, reused ids and the wrap-around of the id counter: the schedule always holds exactly what a diary of the calls and turns holds, and every answer is the diary's. C04_wrap_refuted shows that the bound of C04_bookkeeping is needed: after 2^32 calls the id counter wraps and an agent is dropped."},
{"property": "C05", "status": "partial", "theorems": ["C05_schedule_once_fresh_partial", "C05_schedule_once_refuted"], "note": "False of the code when the caller-chosen id is already queued (refuted); proved for fresh ids."},
{"property": "C06", "status": "partial", "theorems": ["C06_time_monotone", "C06_advances_by_one", "C06_saturation_refuted"], "note": "Monotonicity proved; advance by one proved for integral times up to 2^24; at 2^24 the code violates it (refuted)."},
{"property": "C07", "status": "partial", "theorems": ["C07_priority_order", "C07_nan_refuted"], "note": "Proved for all non-NaN times; refuted for NaN."},
{"property": "C08", "status": "proved", "theorems": ["C08_dequeue_exact"], "note": "Unique ids hold for every reachable schedule by C01_ids_always_unique."},
{"property": "C09", "status": "proved", "theorems": ["C09_parallel_step", "C09_no_deadlock", "C09_workers_terminate"], "note": "Workers modelled at the granularity of lock operations and hook calls; agents that panic (mutex poisoning) are not modelled."},
{"property": "C10", "status": "partial", "theorems": ["C10_refuted", "C10_same_time_partial"], "note": "False of the code: the parallel step pops the whole queue whatever the times. Proved for queues whose events all have the same time."},
{"property": "C11", "status": "proved", "theorems": ["C11_simulate", "C11_state_carried"], "note": "simulate! (no UI) and simulate_old! share the loop; MPI and UI variants not modelled."},
{"property": "C12", "status": "proved", "theorems": ["C12_two_maps"], "note": "Every program of API calls on a new map refines a pair of abstract maps; no panic. The value returned by insert is left to C15."},
{"property": "C13", "status": "proved", "theorems": ["C13_shard_total", "C13_determine_shard", "C13_shard_amount"], "note": "Any number of processors with 4*cpus <= 2^63."},
{"property": "C14", "status": "proved", "theorems": ["C14_linearizable", "C14_nothing_lost", "C14_no_deadlock", "C14_terminates"], "note": "Micro-step model of the shard locks; covers insert, remove and modification through get_write."},
{"property": "C15", "status": "partial", "theorems": ["C15_refuted", "C15_absent_key_partial"], "note": "False of the code: insert removes the entry first and always returns None. Proved: it always returns None, which is the documented answer only for an absent key."},
{"property": "C16", "status": "proved", "theorems": ["C16_history", "C16_last_publication"], "note": "Dense number grid; locations in range."},
{"property": "C17", "status": "partial", "theorems": ["C17_independent_partial", "C17_out_of_range_refuted", "C17_sparse_independent"], "note": "Distinct in-range cells are independent (dense) and all locations are (sparse). Refuted for the dense grid when y is out of range: the location is accepted and aliases a cell of another column."},
{"property": "C18", "status": "proved", "theorems": ["C18_dense_location", "C18_dense_location_unbuffered", "C18_sparse_location"], "note": "Both grids, both buffers, any equality test."},
{"property": "C19", "status": "partial", "theorems": ["C19_dense_empty", "C19_sparse_empty", "C19_sparse_random_partial", "C19_sparse_random_refuted", "C19_sparse_random_empty_side"], "note": "Dense grid fully proved. Sparse get_random_empty_bag never returns on a full grid, so the property is refuted there; otherwise it returns an empty cell as soon as it draws one."},
{"property": "C20", "status": "partial", "theorems": ["C20_dense_read", "C20_dense_readwrite", "C20_dense_write_refuted", "C20_dense_write_actual_partial", "C20_sparse_read_write", "C20_sparse_readwrite_refuted", "C20_sparse_readwrite_partial", "C20_dense_history", "C20_sparse_history"], "note": "Dense WRITE transforms the read state instead of the write state; sparse READWRITE skips locations only present in the write state. What they do compute is proved. C20_dense_history and C20_sparse_history give every cell and answer after any history with apply_to_all_values among the other calls."},
{"property": "C21", "status": "proved", "theorems": ["C21_same_answers", "C21_sparse_history", "C21_apply_refuted"], "note": "Proved for the calls listed in the property, plus apply READ. apply WRITE and READWRITE differ (refutation included)."},
{"property": "C22", "status": "proved", "theorems": ["C22_history", "C22_each_once"], "note": ""},
{"property": "C23", "status": "partial", "theorems": ["C23_reads_equal_partial", "C23_history_partial", "C23_stale_objects_refuted", "C23_apply_panics_refuted"], "note": "After update the reads equal the unbuffered reads, and mixed histories are characterised exactly; but update keeps the write buffer (stale objects are published again) and makes a later apply READ panic, so the two cannot be mixed freely."},
{"property": "C24", "status": "proved", "theorems": ["C24_history"], "note": ""},
{"property": "C25", "status": "partial", "theorems": ["C25_refuted", "C25_alike_refuted", "C25_one_place_partial"], "note": "False of the code: placing an object again leaves it at the old location too. Proved when all placements of the object in the epoch name one location."},
{"property": "C26", "status": "partial", "theorems": ["C26_dense_read_partial", "C26_dense_total_partial", "C26_dense_location_refuted", "C26_dense_write_refuted", "C26_sparse_partial", "C26_sparse_none_refuted", "C26_sparse_readwrite_refuted", "C26_sparse_readwrite_partial", "C26_dense_history_partial", "C26_sparse_history_partial"], "note": "False of the code: the dense grid passes the location of another cell, READWRITE ignores None, WRITE appends; the sparse grid panics on None and READWRITE drops objects. The exact behaviour is proved. C26_dense_history_partial and C26_sparse_history_partial give every bag and answer after any history of calls that does not panic; the sparse theorem also says exactly when the next apply_to_all_values panics."},
{"property": "C27", "status": "proved", "theorems": ["C27_dense_location", "C27_dense_location_unbuffered", "C27_dense_empty", "C27_sparse_location", "C27_sparse_empty", "C27_sparse_random", "C27_sparse_random_empty_side"], "note": "Random draws are explicit; the sparse search returns as soon as an empty cell is drawn."},
{"property": "C28", "status": "partial", "theorems": ["C28_cells", "C28_history", "C28_alias_refuted", "C28_large_refuted"], "note": "Proved in f32 for locations in the field and up to 2^24 cells, and for any arithmetic whenever the sizes are countable. Refuted outside: past the far border a location aliases the next column, and a 4097x4097-cell field has one bag too few and panics."},
{"property": "C29", "status": "partial", "theorems": ["C29_plane_exact", "C29_torus_exact_partial", "C29_f32_partial", "C29_torus_refuted", "C29_rounding_refuted"], "note": "Proved for the algorithm with exact numbers (not toroidal) and in f32 for power-of-two discretizations. Toroidal fields exceed the distance (refuted), by at most the discretization (proved). In f32 with discretization 0.1 rounding also breaks it (refuted)."},
{"property": "C30", "status": "partial", "theorems": ["C30_inner_partial", "C30_once_partial", "C30_answer_partial", "C30_visits_torus", "C30_visits_plane", "C30_own_bag_refuted", "C30_next_bag_refuted", "C30_torus_refuted", "C30_repeated_refuted"], "note": "False of the code in four ways (refuted: own bag, next bag, across the torus border, repeated objects). Proved: objects closer than dist - discretization are found; at most once in toroidal fields or away from the border. C30_answer_partial gives, for exact numbers, the exact answer of both queries after every history: which placements are selected and how often each is returned."},
{"property": "C31", "status": "proved", "theorems": ["C31_superset", "C31_no_panic", "C30_answer_partial"], "note": "Any arithmetic, any field state. C30_answer_partial also gives the exact answer of the relaxed query for exact numbers."},
{"property": "C32", "status": "partial", "theorems": ["C32_transform_exact", "C32_distance_exact", "C32_transform_f32_partial", "C32_distance_f32_partial", "C32_refuted"], "note": "Proved with exact numbers. In f32 the results are the rounded ones: bounds, error and antisymmetry proved, but toroidal_transform can return dim itself (refuted)."},
{"property": "C33", "status": "partial", "theorems": ["C33_symmetric_partial", "C33_refuted"], "note": "Symmetric, with the same options, after every good history (removals between nodes joined at most once). False in general: remove_edge between nodes joined twice removes one entry on one side and all on the other."},
{"property": "C34", "status": "partial", "theorems": ["C34_ids_partial", "C34_good_partial", "C34_removed_refuted", "C34_readded_refuted"], "note": "Ids are unique and get_object inverts get_id for histories without remove_node that add different nodes, and for histories with remove_node in which the next id is free when a node is added. False in general: the id is the number of nodes, so it collides after remove_node and after re-adding a node."},
{"property": "C35", "status": "proved", "theorems": ["C35_last_update", "C35_published"], "note": "All histories, no side conditions."},
{"property": "C36", "status": "partial", "theorems": ["C36_removed_partial", "C36_unpublished_refuted", "C36_parallel_refuted", "C36_panic_refuted", "C36_unpublished_kept_refuted"], "note": "Holds when the node and the far ends of its edges are published and, if directed, no two edges to it come from one node. False otherwise: dangling edges stay or the call panics."},
{"property": "C37", "status": "proved", "theorems": ["C37_network", "C37_shape", "C37_short_slice_refuted"], "note": "For every network reached by a good history whose nodes are the first n entries of the slice. With a slice shorter than the network the code panics."},
{"property": "C38", "status": "partial", "theorems": ["C38_removed_partial", "C38_directed_partial", "C38_parallel_refuted", "C38_panic_refuted"], "note": "Exactly the edge is removed when the nodes are joined once; directed: the first of several. Undirected and joined twice: more is removed on the far side. Panics after remove_all_edges."},
{"property": "C39", "status": "partial", "theorems": ["C39_lists_own", "C39_shared_partial", "C39_added_partial", "C39_removed_partial", "C39_refuted"], "note": "Proved for every history: a node's list holds only hyperedges it is a member of. Proved for histories satisfying hgood (spec): a listed hyperedge is listed by exactly its members; add_edge true + update lists it at exactly its members and changes no other list; remove_edge takes it out of every list and nothing else. The unconditional claim is false: add_edge naming a node twice answers false after adding the hyperedge to the first member's list only (C39_refuted)."},
{"property": "C40", "status": "partial", "theorems": ["C40_removed_partial", "C40_unpublished_refuted", "C40_panic_refuted"], "note": "Proved for histories satisfying hgood. False in general: hyperedges added since the last update survive their member, and remove_object panics after remove_all_edges."},
{"property": "C41", "status": "partial", "theorems": ["C41_frozen_partial", "C41_published", "C41_frozen_refuted", "C41_ids_partial", "C41_good_ids_partial", "C41_ids_refuted", "C41_again_refuted"], "note": "get_object is frozen between updates for every history; get_edges/get_edge only as long as no node is added or removed (names are not buffered, C41_frozen_refuted). Ids are unique without removals of objects or when the next id is free; false in general (C41_ids_refuted)."},
{"property": "C42", "status": "proved", "theorems": ["C42_product", "C42_choices", "C42_row_lengths", "C42_empty_refuted"], "note": "Proved for non-empty inputs: the table's columns are exactly the Cartesian product, once each, in lexicographic order. Refuted for empty inputs: a division by zero panics. C42_row_lengths states how much longer than needed the rows are."},
{"property": "C43", "status": "partial", "theorems": ["C43_sequential", "C43_parallel", "C43_inputs_agree", "C43_results_agree_partial", "C43_results_refuted", "C43_numbering_refuted", "C43_matched_refuted"], "note": "One row per configuration and repetition, in order, proved for both versions. That both give the same results is proved only for simulations that reset the state; refuted in general (the sequential version reuses the state across repetitions, and numbers repetitions from 1). Matched inputs of unequal lengths panic or are cut."},
{"property": "C44", "status": "proved", "theorems": ["C44_partition", "C44_rank_handles", "C44_counts", "C44_same_runs", "C44_zero_reps_refuted"], "note": "Partition, balance, counts and displacements, gather and equality of the results with the sequential exploration up to order proved for at least one repetition; refuted for zero repetitions (panic at the root)."},
{"property": "C45", "status": "partial", "theorems": ["C45_number_partial", "C45_refuted"], "note": "Refuted: conf_num is the index local to the rank. C45_number_partial states exactly what it is: the configuration divided by the number of processes."},
{"property": "C46", "status": "proved", "theorems": ["C46_rows", "C46_panics", "C46_ends", "C46_best", "C46_best_preorder", "C46_f32_orders", "C46_nan_refuted"], "note": "Rows, panics and termination for every search; the best for every comparison that is a strict weak order (or a total preorder) on the scores, such as > (or >=) on f32 without NaN. With NaN, where > is no strict weak order, the reported best can be NaN (C46_nan_refuted)."},
{"property": "C47", "status": "partial", "theorems": ["C47_rows", "C47_returns", "C47_extends", "C47_same_stop_partial", "C47_best", "C47_states", "C47_refuted"], "note": "Rows extend those of the sequential search, and both stop in the same generation unless a selection leaves exactly one individual, where the sequential search stops and the parallel one goes on (refuted)."},
{"property": "C48", "status": "proved", "theorems": ["C48_split", "C48_indices"], "note": "The split is a partition in order with sizes differing by at most one; after the gather row i has index i and the score of individual i."},
{"property": "C49", "status": "proved", "theorems": ["C49_best", "C49_least", "C49_no_reps"], "note": "For every generator, simulation, cost, batch size and number of iterations: no panic, the first sample with least mean cost (f32 arithmetic) or the initial state, and the stop rule. With reps = 0 every mean is NaN and the initial state is returned. Batches of 2^31 samples or more (i32 index wrap) are not modelled."},
{"property": "C50", "status": "partial", "theorems": ["C50_best_partial", "C50_values", "C50_panics", "C50_refuted", "C50_certain_point", "C50_improvement"], "note": "Proved whenever some evaluated value exceeds the least finite f64 (also with NaN values). Refuted for an objective that is minus infinity everywhere: the reported value is f64::MIN. The Gaussian process and the normal distribution are external and arbitrary."},
{"property": "C51", "status": "partial", "theorems": ["C51_integers_partial", "C51_floats_partial", "C51_zero_refuted", "C51_top_refuted", "C51_f32_refuted", "C51_equal_floats_refuted"], "note": "Proved for integer types unless both bounds are the greatest value, and for floats with different bounds. Refuted: n = 0 gives no value, equal greatest bounds panic, equal floats draw from [x, x+1), equal f32 bounds of 2^24 panic."},
{"property": "C52", "status": "partial", "theorems": ["C52_blocks", "C52_tiles_exact", "C52_single", "C52_f32_partial", "C52_border_refuted", "C52_gap_refuted"], "note": "p blocks with ids 0..p-1 for any arithmetic; tiling proved for exact numbers and for f32 sizes that are never rounded. Refuted in f32 in general: border points and even inner points belong to no block and get_block_by_location panics."},
{"property": "C53", "status": "partial", "theorems": ["C53_delivers_partial", "C53_no_deadlock_partial", "C53_bounded_partial", "C53_completes_partial", "C53_kdtree_network", "C53_ready_refuted", "C53_argument_refuted"], "note": "All networks, contents, numbers of calls, schedules and send bufferings, when a ready send is treated as a send: exact delivery, no error, no deadlock, bounded work, completion. Refuted: the ready send can precede the posted receive (an error in MPI), and with_regions=false ignores the argument."},
{"property": "C54", "status": "partial", "theorems": ["C54_plots_partial", "C54_infinite_refuted", "C54_expression_refuted", "C54_csv_refuted"], "note": "For every history of addplot!/plot!/clear the stored plot shows exactly the calls after its first addplot! and bounds are exact for finite values. The full claim is false of the code: an infinite point leaves the bound at f64::MAX, the argument expressions are evaluated several times, and csv plots panic without the terminal."},
{"property": "C55", "status": "partial", "theorems": ["C55_tabs", "C55_cycle", "C55_quit", "C55_no_panic_partial", "C55_no_panic_release", "C55_selected_partial", "C55_up_refuted", "C55_reps_refuted", "C55_keys"], "note": "Tab index always in range, cyclic navigation, which keys show the charts, the description and the selection, quitting and no panic are proved for every session; with overflow checks Up, Up before the first log panics (release: selects log 2^64-1), and zero repetitions panics at the first drawing."},
{"property": "C56", "status": "partial", "theorems": ["C56_panics", "C56_more_cpus_refuted", "C56_fewer_cpus_refuted", "C56_same_cpus_partial"], "note": "False of the code when the reported processor count changes; proved when it does not. C56_panics: exactly when the calls panic."},
{"property": "C57", "status": "partial", "theorems": ["C57_sparse_partial", "C57_dense_partial", "C57_parallel_history", "C57_cell_difference", "C57_refuted"], "note": "update and apply READ differ between the builds; the remaining calls agree. C57_parallel_history gives every cell and every answer of the parallel build after every history of the calls it offers; C57_cell_difference says after which calls a cell of the two builds parts."},
{"property": "C58", "status": "proved", "theorems": ["C58_dense_iter", "C58_sparse_iter"], "note": ""},
{"property": "C59", "status": "partial", "theorems": ["C59_refuted", "C59_existing_bag_partial"], "note": "False of the code: two threads placing at a fresh location can lose one object. Proved when a bag exists at the location beforehand."},
{"property": "C60", "status": "partial", "theorems": ["C60_panic_refuted", "C60_not_removed_refuted", "C60_same_location_partial", "C60_every_history_partial"], "note": "False of the code: panics after a publication, and leaves unpublished objects in their bag. Proved when the published location is also the current one. C60_every_history_partial covers every history of calls, with remove_object, update and apply_to_all_values: bags, locations and answers are those of PBagSpec, and a history panics exactly in a remove_object of an object whose published location was not used since."},
{"property": "C61", "status": "partial", "theorems": ["C61_history", "C61_same_as_sequential", "C61_two_places_refuted", "C61_removed_refuted", "C61_apply_refuted", "C60_every_history_partial"], "note": "The reads are as stated; but get_objects and get_location can disagree after a move, a removal or apply_to_all_values. C60_every_history_partial covers every history of calls, with remove_object, update and apply_to_all_values: bags, locations and answers are those of PBagSpec, and a history panics exactly in a remove_object of an object whose published location was not used since."},
{"property": "C62", "status": "proved", "theorems": ["C62_dense_iter", "C62_sparse_iter"], "note": "Sequential grids."},
{"property": "C63", "status": "proved", "theorems": ["C63_get_all_events", "C63_number_of_events"], "note": "get_all_events per API call and over whole programs (schedule_once excluded from the count as in C04)."},
{"property": "C64", "status": "proved", "theorems": ["C64_get", "C64_iter_empty"], "note": "For histories without remove_object, update and apply_to_all_values (see C60, C61 for what those break)."},
{"property": "C65", "status": "proved", "theorems": ["C65_refines_graph"], "note": ""},
{"property": "C66", "status": "proved", "theorems": ["C66_weights_are_degrees", "C37_network"], "note": "C37_network says the code builds the links described by attached; C66 spells out the weights in it."},
{"property": "C67", "status": "partial", "theorems": ["C67_get_edges_partial", "C67_removed_all_refuted"], "note": "Holds for good histories without remove_all_edges; after it the answer is None, against the documentation."},
{"property": "C68", "status": "partial", "theorems": ["C68_display_partial", "C68_removed_refuted"], "note": "For good histories without remove_node; after remove_node the ids have a gap and printing panics."},
{"property": "C69", "status": "proved", "theorems": ["C69_refines_hypergraph", "C69_panic_refuted"], "note": "Proved as stated, for every history satisfying hgood (the conditions of the statement, in HNetSpec.v). C69_panic_refuted: outside them remove_edge panics."},
{"property": "C70", "status": "partial", "theorems": ["C70_mpi_partial", "C70_size_refuted", "C70_grow_refuted", "C70_thousand_refuted", "C70_few_refuted"], "note": "Proved when all populations have one size that is at least the number of processes and no score is 1000. Refuted otherwise: a shrinking population is selected by the scores of an earlier generation, a growing one panics, a score of 1000 panics, fewer individuals than processes panic."},
{"property": "C71", "status": "partial", "theorems": ["C71_report_partial", "C71_dummy_refuted"], "note": "Fitness, generation and shown individual proved under the hypotheses of C70; the reported row is the dummy with fitness 1000 whenever no score beats 1000 (refuted)."},
{"property": "C72", "status": "partial", "theorems": ["C72_all_return_partial", "C72_refuted"], "note": "Proved when every selection leaves at least two individuals; refuted when one leaves fewer before the last generation: the root leaves the loop alone."},
{"property": "C73", "status": "partial", "theorems": ["C73_iter", "C73_location_refuted"], "note": "Exactly once each, proved; the location passed is the lower corner of the cell, not the object's location (refuted)."},
{"property": "C74", "status": "partial", "theorems": ["C74_empty", "C74_documented_refuted"], "note": "The returned cells are exactly the empty ones, including an extra row and column on the far border, so the documented count is wrong (refuted)."},
{"property": "C75", "status": "partial", "theorems": ["C75_symmetric", "C75_touch_exact", "C75_touch_f32_partial", "C75_rounding_refuted"], "note": "Mutual, increasing, in range for any arithmetic; touching blocks exactly for exact numbers and unrounded f32; refuted by rounding in general."},
{"property": "C76", "status": "partial", "theorems": ["C76_outgoing", "C76_halo_exact_partial", "C76_halo_f32_partial", "C76_halo_refuted", "C76_rounding_refuted"], "note": "What is sent, for any arithmetic; the geometric guarantee for power-of-two grids of blocks (exact and unrounded f32). Refuted in general: with an irregular subdivision, and by rounding, near agents are not sent."},
{"property": "C77", "status": "partial", "theorems": ["C77_history", "C77_addressed", "C77_removed_refuted", "C77_dropped_refuted"], "note": "Storage and mail lists for any history; refuted: removed agents stay in the halo mail, and agents addressed to a process that is no neighbour are dropped."},
{"property": "C78", "status": "partial", "theorems": ["C78_sound", "C78_relax", "C78_sound_exact_partial", "C78_inner_partial", "C78_answer_partial", "C78_same_place_refuted", "C78_torus_refuted", "C78_clipped_refuted"], "note": "No panic, each at most once, sound up to one discretization step, complete one step inside the distance without wrapping; for exact numbers the exact answer after every history. Refuted: other agents at the query location, agents across the border; the relaxed query is cut to the halo distance."},
{"property": "C79", "status": "partial", "theorems": ["C79_every_plot_partial", "C79_titles", "C79_home_refuted"], "note": "Holds for every plot not named Home; a plot named Home is never shown."},
{"property": "C80", "status": "partial", "theorems": ["C80_samples", "C80_axis_partial", "C80_newest_refuted"], "note": "The samples are always the last 101; they lie on the axis for the first 100 steps; from step 101 on the newest sample is always outside the axis."},
{"property": "C81", "status": "partial", "theorems": ["C81_csv_partial", "C81_completes", "C81_init_refuted", "C81_names_refuted"], "note": "Under every interleaving, each file holds exactly the rows of its repetition, and the threads finish. The full claim is false: rows plotted in init go to the previous repetition's file (or are lost), and names that differ only in '/' and '-' share a file."},
{"property": "C82", "status": "partial", "theorems": ["C82_same_partial", "C82_completes", "C82_after_quit", "C82_messages", "C82_shown", "C82_early_end_refuted", "C82_returns_partial", "C82_returns_refuted"], "note": "Same simulation under every interleaving if the user does not quit and end_condition ends no repetition but the last; each step shown at most once. Refuted otherwise: an early end_condition can drop later repetitions depending on timing, and the quit message can be overwritten so that the terminal never closes by itself."},
{"property": "C83", "status": "proved", "theorems": ["C83_log_file", "C83_log_list"], "note": "For every interleaving of the simulation thread with threads whose logs are not stored."},
{"property": "C84", "status": "partial", "theorems": ["C84_complete", "C84_recorded", "C84_sound_partial", "C84_sound_refuted", "C84_shorter_refuted"], "note": "A model that is reproducible is always found so. What is compared are the agents after init and after every step. A positive verdict is right for agents of the same listed type up to the end of the first execution. Refuted: agents of different types are not compared, a longer second execution is not noticed, a shorter one panics."},
{"property": "C85", "status": "partial", "theorems": ["C85_axes_partial", "C85_negative_refuted"], "note": "Holds for finite values when some point has y >= 0; with only negative y the highest point is above the axis."},
{"property": "C86", "status": "partial", "theorems": ["C86_reps_partial", "C86_chart", "C86_lost_refuted"], "note": "At most once and in order under every interleaving, and the chart shows exactly what was reported; refuted: a finished repetition can be missing."},
{"property": "C87", "status": "proved", "theorems": ["C87_history", "C87_no_panic", "C87_same_as_sequential", "C87_answers"], "note": "One thread; several threads are C91."},
{"property": "C88", "status": "partial", "theorems": ["C88_one_place_partial", "C88_moved_refuted", "C88_update_refuted", "C88_vanished_refuted"], "note": "False in general: an object placed twice before a publication is read in both bags (set_object_location never removes it from the old bag); with update an object that moved is still read where it was; with update after lazy_update an object with a location can be in no bag. Holds with lazy_update only when no object is placed twice between two publications."},
{"property": "C89", "status": "partial", "theorems": ["C89_same_as_sequential", "C89_answer_partial", "C89_plane_exact", "C89_f32_partial", "C89_inner_partial", "C89_no_room_refuted", "C89_empty_refuted", "C89_panic_refuted"], "note": "Equal to the sequential field exactly when at least one object is published and the estimated capacity can be reserved; otherwise both queries panic (division by zero on an empty field, capacity overflow for large distances). The size of a reserve that fits the address space but not the memory is not modelled. C89_answer_partial gives, in exact arithmetic, the whole answer of both queries after any history without update."},
{"property": "C90", "status": "partial", "theorems": ["C90_unbuffered", "C90_panic_refuted", "C90_old_refuted"], "note": "get_location_unbuffered panics where it should answer None: for every object not placed since the last lazy_update. get_unbuffered returns the first equal object of the bag, not the one placed last."},
{"property": "C91", "status": "partial", "theorems": ["C91_single_writer_partial", "C91_existing_bag_partial", "C91_only_placed", "C91_no_panic", "C91_lost_refuted", "C91_reader_panic_refuted"], "note": "False in general: two threads that both find a bag missing each insert their own, and one object is lost. Holds for cells written by one thread and for cells that already have a bag. A reader using get_unbuffered during a placement can panic."},
{"property": "C92", "status": "proved", "theorems": ["C92_refines_graph", "C92_plain_histories"], "note": "p_good_run names the faults to avoid (reuse of an id still published, removing an edge of a node without a list, parallel undirected edges, get_edge next to a node removed since the update); C92_plain_histories: histories without node removals that add different nodes always qualify."},
{"property": "C93", "status": "partial", "theorems": ["C93_last_update_partial", "C93_removed_refuted"], "note": "Proved for histories without remove_node; refuted with it: the node is unknown at once and get_edge on its neighbours panics before the next update."},
{"property": "C94", "status": "partial", "theorems": ["C94_unpublished_partial", "C94_published_refuted"], "note": "As stated it is false: only the edges never published disappear; the published lists stay, and the next remove_edge panics. Proved: exactly that, for every history."},
{"property": "C95", "status": "partial", "theorems": ["C95_removed_partial", "C95_object_refuted", "C95_inherits_refuted", "C95_shared_id_refuted"], "note": "Proved for good histories without remove_all_edges. Refuted: get_object still shows the removed node, a node added later inherits the published edges of a removed one, and two nodes can share an id."},
{"property": "C96", "status": "partial", "theorems": ["C96_removed_partial", "C96_directed_partial", "C96_parallel_refuted"], "note": "Proved for histories without remove_all_edges: nodes joined at most once, or directed networks (the first of several). Refuted for undirected networks with parallel edges; after remove_all_edges remove_edge panics (C94_published_refuted)."},
{"property": "C97", "status": "partial", "theorems": ["C97_network_partial", "C97_stale_refuted", "C97_short_slice_refuted"], "note": "Proved for nodes that receive edges (every node of an undirected network when m >= 1). Refuted: a directed node without outgoing links keeps its old published edges; a slice shorter than the network panics; a slice of one node publishes nothing."},
{"property": "C98", "status": "proved", "theorems": ["C98_candidates", "C98_unknown", "C98_self_loop_refuted"], "note": "The candidates, their weights, the amount drawn and the edges added, for every draw. Refuted: that the other node is different from u (self loops happen)."},
{"property": "C99", "status": "partial", "theorems": ["C99_symmetric_partial", "C99_refuted"], "note": "Proved for histories without remove_all_edges; refuted with it: one end keeps a stale edge."},
{"property": "C100", "status": "proved", "theorems": ["C100_split", "C100_no_functions_refuted"], "note": "Every population, repetitions and positive number of functions; the boundary is shown too: with 0 functions the search panics."},
{"property": "C101", "status": "partial", "theorems": ["C101_rows_partial", "C101_generation", "C101_json", "C101_decode", "C101_more_functions_refuted", "C101_late_refuted", "C101_twice_refuted", "C101_text_refuted", "C101_nan_refuted", "C101_index_refuted"], "note": "Proved when each message arrives once and in time, individuals are plain text (no quotes, backslashes or control characters), fitness prints as a JSON number and there is at least one evaluation per function. The reader of messages accepts exactly the JSON texts (C101_json) and gives exactly the rows in them (C101_decode). Refuted outside: more functions than evaluations always panic; a result later than 20 s panics; a message delivered twice puts evaluations of an earlier generation into a later one; an individual with a quote is replaced or panics, one with an escape is reported as what the escape stands for; a NaN fitness panics; the index is the position in the message, not in the population."},
{"property": "C102", "status": "partial", "theorems": ["C102_best_partial", "C102_negative_refuted"], "note": "Proved on every network when some fitness is positive; otherwise the report is fitness 0 and an empty individual, which is no row."},
{"property": "C103", "status": "partial", "theorems": ["C103_growth", "C103_refuted"], "note": "Refuted: every repetition is a candidate of its own; what holds instead is proved: with selection and crossover that keep the number of individuals the population is multiplied by $reps in every generation."},
{"property": "C104", "status": "partial", "theorems": ["C104_steps", "C104_simulate_partial", "C104_end_refuted"], "note": "Proved for all histories, paused or playing at the start: one step per unpaused tick, and agreement with simulate! when end_condition always says no. Refuted: the window never calls end_condition, so it goes on where simulate! stops."},
{"property": "C105", "status": "partial", "theorems": ["C105_restart", "C105_again", "C105_graphics_refuted"], "note": "Proved for the simulation. Refuted for the screen: the visualisation state is not reset, so the sprites after Stop can differ from those at the start."},
{"property": "C106", "status": "partial", "theorems": ["C106_start", "C106_tick", "C106_paused", "C106_new_agents_refuted", "C106_hide_refuted", "C106_drift_refuted"], "note": "Proved: one sprite per agent with a render at start and after Stop, and each tick redraws every sprite half a unit above where update puts it. Refuted: agents scheduled later get none, update cannot hide a sprite, and an update that leaves y alone makes it climb by 1/2 per tick."},
{"property": "C107", "status": "partial", "theorems": ["C107_start", "C107_frame", "C107_place_refuted"], "note": "Proved: one sprite per published object at start, and the place of each sprite after each frame. Refuted: an object that does not move jumps from y - 1/2 to y + 1/2; sprites of objects that left stay and new objects get none."},
{"property": "C108", "status": "partial", "theorems": ["C108_lines", "C108_moved_partial", "C108_back_refuted", "C108_edges_refuted"], "note": "Proved: the exact path of each line after any sequence of frames, right whenever an end is not where it started. Refuted: a line is stale when both ends are back where they started, and edges added or removed later are not shown."},
{"property": "C109", "status": "proved", "theorems": ["C109_texture"], "note": "The byte at every position, for all sizes up to 2^31."},
{"property": "C110", "status": "proved", "theorems": ["C110_images"], "note": "For every sequence of requests."},
{"property": "C111", "status": "partial", "theorems": ["C111_round_trip", "C111_load", "C111_integers", "C111_dataframe", "C111_strings_refuted"], "note": "Proved for all names and rows of equal length (at least one field, first name not starting with a byte order mark), all quoting choices and buffer sizes, if the disk has room. C111_integers: tables of integers of any integer types come back through load_csv!, value by value. Refuted for strings in dataframes: they are printed with Debug and come back with quotes."},
{"property": "C112", "status": "partial", "theorems": ["C112_load", "C112_bom", "C112_header_refuted"], "note": "Proved for every text of the grammar in CsvSpec, with or without a byte order mark, with the exact condition for a panic. Refuted for files without a header, whose first record is dropped."},
{"property": "C113", "status": "partial", "theorems": ["C113_result_partial", "C113_ok_refuted"], "note": "Proved: what each result implies, that the file is always a prefix of what should be there, and that Ok loses at most one buffer. Refuted: with a full disk Ok is returned and nothing is written."},
{"property": "C114", "status": "partial", "theorems": ["C114_same", "C114_completes_partial", "C114_end_refuted", "C114_reps_refuted"], "note": "Proved: each process runs simulate!'s simulation; with one repetition all complete exactly when end_condition said no equally often in all. Refuted: processes that end at different steps deadlock, and two or more repetitions never complete, since MPI is finalised after each."},
{"property": "C115", "status": "partial", "theorems": ["C115_same_partial", "C115_report_refuted", "C115_all_steps_refuted", "C115_long_run_refuted"], "note": "Proved when the report fits its columns, with the exact condition. Refuted otherwise: more than 15 digits of steps and repetitions together, or a run of 10000 seconds, make the width of a column negative."},
{"property": "C116", "status": "proved", "theorems": ["C116_steps", "C116_simulate", "C116_shared_refuted"], "note": "Proved as stated, for all simulations that meet its conditions (record independent of OrderSpec.v, keys distinct in the queue of every step). C116_shared_refuted shows that the conditions matter: for agents that write a shared place the tie-break decides."},
{"property": "C117", "status": "proved", "theorems": ["C117_parallel_same", "C117_completes"], "note": "Hooks that use only calls present in both builds; all agents due at one time (otherwise C10 refutes it). C117_completes: suitable interleavings finish every step."},
{"property": "C118", "status": "partial", "theorems": ["C118_number_grid", "C118_field_partial", "C118_order_of_neighbours_refuted"], "note": "Full for number grids. In a Field2D proved if the rule does not depend on the order in which neighbours are listed; a sum of f32 over the neighbours, as in flockers, does depend on it (refuted)."},
{"property": "C119", "status": "partial", "theorems": ["C119_dense_objects", "C119_sparse_objects", "C119_dense_numbers", "C119_sparse_numbers", "C119_dense_objects_calls", "C119_sparse_objects_calls", "C119_dense_numbers_calls", "C119_sparse_numbers_calls", "C119_field_partial", "C119_field_relax_refuted", "C119_field_relax_partial"], "note": "Proved for the four sequential grids, for every closure that does not itself call apply_to_all_values with READ (which changes the published buffer); the *_calls theorems need no condition beyond making plain calls. False of Field2D: get_neighbors_within_relax_distance borrows the published bags for changing (field_2d.rs L509), so a closure of iter_objects that calls it panics; proved for closures that do not. C119_field_relax_partial: the call is harmless when its distance is not positive or its window holds no bag."},
{"property": "C120", "status": "partial", "theorems": ["C120_dense_objects_partial", "C120_sparse_objects_partial", "C120_dense_numbers_partial", "C120_sparse_numbers_partial", "C120_field_partial", "C120_dense_objects_refuted", "C120_sparse_objects_refuted", "C120_sparse_numbers_refuted", "C120_field_refuted", "C120_dense_numbers_rewrite", "C120_dense_numbers_refuted", "C120_dense_objects_looking", "C120_sparse_objects_looking", "C120_dense_numbers_looking", "C120_sparse_numbers_looking", "C120_field_looking"], "note": "False: in the object grids, the sparse number grid and Field2D the write buffer stays borrowed while the closure runs, so a closure that starts by placing or removing panics as soon as there is an item. The dense number grid copies each value out first: a closure may rewrite the cells, but the iteration then visits what it writes ahead. The equation is proved for closures that do not change the write buffer. The _looking theorems say it in terms of calls: any closure made of calls other than placing and removing runs as if it were called on each item in turn."},
{"property": "C121", "status": "partial", "theorems": ["C121_dense_objects", "C121_sparse_objects", "C121_sparse_numbers", "C121_dense_numbers_partial", "C121_dense_numbers_refuted", "C121_own_buffer_refuted", "C121_dense_objects_looking", "C121_sparse_objects_looking", "C121_sparse_numbers_looking", "C121_dense_numbers_looking_partial", "C121_nested_refuted"], "note": "Proved for the object grids and the sparse number grid with all three options, and for the dense number grid with READ and WRITE. False of the dense number grid with READWRITE, which borrows the published buffer for changing (dense_number_grid_2d.rs L182): a closure that reads published values panics. C121_own_buffer_refuted: using the buffer that is worked on panics in all four grids. The _looking theorems describe the closures by the calls they make. C121_nested_refuted: apply inside apply panics, except READ and WRITE in the sparse grids."},
{"property": "C122", "status": "proved", "theorems": ["C122_start", "C122_synchronous", "C122_population", "C122_simulate"], "note": "For user programs of the shape of tests/model/flockers (FlockModel.v) with arbitrary rule, radius, stop and end condition. Assumed: agents start in the field and the rule keeps them there (C28 says what happens otherwise), fewer than 2^32 agents (ids) and 2^64 steps (counter). around is the answer of get_neighbors_within_distance on the field at the start of the step; which objects that query finds is C29-C31."},
{"property": "C123", "status": "partial", "theorems": ["C123_gets_its_turn_partial", "C123_again_and_again_partial", "C123_starved_by_hooks_refuted", "C06_saturation_refuted", "C123_births_partial", "C123_births_again_partial"], "note": "False as stated: an agent waiting after time 2^24 is starved by repeating agents whose f32 time no longer advances (C06_saturation_refuted), and one waiting behind a hook that schedules a one-shot agent at the current time in every step never runs (C123_starved_by_hooks_refuted). Proved for an agent at a finite time of at most 2^24 when everything before it is at a finite time of at least -2^24 and the hooks of the step schedule nothing (they may read and dequeue others): it runs after a number of steps that depends only on the queue, for every agent behaviour and tie-break; a repeating one runs any number of times in every endless run unless it reports is_stopped. The births theorems extend this to hooks and calls that schedule any number of agents at times later than the current one. Missing: hooks that schedule at the current time only finitely often; the parallel build runs every queued agent in each step (C09)."},
{"property": "C124", "status": "proved", "theorems": ["C124_dense", "C124_sparse", "C124_lookalikes_refuted", "C124_flag"], "note": "For user programs of the shape of tests/model/flockers over a grid of bags (StageModel.v), with arbitrary cells looked at, rule, stop and end condition. Assumed: == tells the agents apart by an id the rule keeps (without that the dense grid loses agents that meet, C124_lookalikes_refuted), on the dense grid agents stay on the grid, fewer than 2^32 agents and 2^64 steps. C124_flag: the model does not lose a panic."},
{"property": "C125", "status": "partial", "theorems": ["C125_sequential_partial", "C125_parallel_partial", "C125_plot_in_plot_refuted", "C125_log_in_log_refuted", "C125_closure_refuted", "C125_two_closures_refuted", "C125_two_threads_refuted"], "note": "False in general: plot! inside an argument of plot!, log! inside the message of log!, or a closure of apply_to_all_values (WRITE, READWRITE, parallel build) that looks at its own shard hangs its thread whatever the others do; two user threads that log while plotting and plot while logging, or whose closures look into each other's shards, can block each other. True, for every interleaving and with a bound on the number of moves: one model thread that never reaches a macro inside an argument of one that holds a lock it needs, among threads that take one lock at a time (the sequential build); and any number of threads with agents and hooks under the state lock, field methods, and macros whose arguments do no more than log and use fields (the parallel build). Waiting for messages, keys and the end of threads happens without locks and is left out, as are panics."},
{"property": "C126", "status": "partial", "theorems": ["C126_conserved_partial", "C126_synchronous_partial", "C126_completes_partial", "C126_jump_refuted", "C126_clock_refuted"], "note": "For every schedule of processes and network when a ready send is treated as a send (C53), every number of processes, field, rule and run length: conservation, placement, no panic, synchronous views and completion, provided agents move at most into a neighbouring block. Refuted: an agent that moves further is lost, and a process without agents does not advance its clock, so times differ. What a halo contains is C76."},
{"property": "C127", "status": "partial", "theorems": ["C127_grid", "C127_field", "C127_loop", "C127_same_as_sparse", "C127_same_as_dense", "C127_same_flock", "C127_exit_refuted"], "note": "Proved for all interleavings: the grids, the field, the calls of simulate! and agreement with the sequential grids and field for agents that do not depend on the order in which they see others. Refuted: when everybody has stopped the parallel build exits the process and the remaining repetitions do not happen."},
{"property": "C128", "status": "partial", "theorems": ["C128_field", "C128_until_first_update", "C128_tree", "C128_agents_refuted"], "note": "For every history of calls: exactly which agents the counters of Field2D and Kdtree count. They are the number of agents in the field until the first lazy_update has been made; from then on they are frozen, so the documented meaning is refuted for running simulations."},
{"property": "C129", "status": "partial", "theorems": ["C129_sequential_refuted", "C129_parallel_refuted", "C129_alone_refuted"], "note": "False: what before_step and after_step return is dropped (schedule.rs L186-190, L397-399). Refuted in general: programs that differ only in the returned agents behave the same, in both builds."},
{"property": "C130", "status": "partial", "theorems": ["C130_no_panic", "C130_panic", "C130_parallel_no_panic", "C130_parallel_panic", "C130_no_deadlock", "C130_lost_refuted", "C130_lost_parallel_refuted", "C130_state", "C130_parallel_state"], "note": "Everything but the last clause is proved for both builds, with exactly which agents stay scheduled after the panic; the due agents that have not had their turn are lost (refuted). Panics of the hooks of the state are C134; panic = abort is not modelled."},
{"property": "C131", "status": "partial", "theorems": ["C131_shows", "C131_fills_partial", "C131_cells", "C131_dimensions", "C131_window_refuted", "C131_narrow_refuted", "C131_first_refuted"], "note": "Exact arithmetic (and f32 for the NaN). Proved for windows wider than the panel; refuted for the window's own size, narrower windows and the first drawing of sprites. Bevy's camera and default window are taken from its documentation."},
{"property": "C132", "status": "partial", "theorems": ["C132_threads", "C132_any", "C132_zero_refuted"], "note": "The value of --nt is given: clap's reading of the command line is not modelled. Refuted for --nt 0."},
{"property": "C133", "status": "proved", "theorems": ["C133_chosen", "C133_left", "C133_session", "C133_shown"], "note": "f64 bit by bit (Flocq error bounds over every duration from 4 ms to 10 s). Duration, bevy's set_timestep_seconds and egui's clamping slider are modelled by their documentation; a slider left alone may or may not clamp."},
{"property": "C134", "status": "proved", "theorems": ["C134_step", "C134_nobody_lost", "C134_parallel", "C134_parallel_nobody_lost"], "note": "Both builds, step by step and for histories. Hooks call the schedule's methods; hooks that assign to its fields or call step themselves are not modelled."},
{"property": "C135", "status": "partial", "theorems": ["C135_step_label", "C135_entities_label", "C135_agents_refuted", "C135_picture", "C135_panics", "C135_one_picture", "C135_stop_refuted"], "note": "The labels and pictures are proved for every history. Refuted: the entities shown are not the agents of the schedule, and a grid that is rendered outside on_init makes the first draw after a click on Stop panic."},
{"property": "C136", "status": "proved", "theorems": ["C136_home", "C136_numbers", "C136_objects", "C136_sizes", "C136_next_column_refuted"], "note": "Arithmetic is that of a release build (32-bit wrap-around); a debug build panics where it would wrap. C136_next_column_refuted shows that no grid with two columns refuses every outside location."},
{"property": "C137", "status": "proved", "theorems": ["C137_dense", "C137_sparse", "C137_field", "C137_parallel_grid", "C137_parallel_field"], "note": "Both builds. The hooks are an assumption about the user: what they look at, whom they make and when agents stop is arbitrary. Agents carry distinct numbers that == compares; on the dense grid and in the sequential field all locations are inside. In the parallel field as long as there have been so few agents that the query for neighbours cannot panic (C121)."},
{"property": "C138", "status": "partial", "theorems": ["C138_modes_partial", "C138_modes_refuted", "C138_same_runs"], "note": "The documented conditions are false of the code (C138_modes_refuted); C138_modes_partial states the exact ones. The typing of the arms is a simplified form of the rule of Rust."},
{"property": "C139", "status": "proved", "theorems": ["C139_arrow", "C139_point"], "note": "Over real numbers: rounding of f32 is left out."}
]}
