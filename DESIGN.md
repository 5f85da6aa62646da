# Design of the krABMaga model and proofs

## What this is

`/verif/rocq/theories` holds a model of krABMaga (the Rust agent-based simulation
engine in `/repo`) in Coq 8.16.1, and theorems about it. The properties are listed
in `properties.jsonl` (ids C01, C02, ...). `MANIFEST.json` maps each to theorems.

## Conventions

* One group of files per subsystem:
  `XModel.v` (executable definitions, each citing the file and lines it models),
  `XSpec.v` (small independent specification),
  `XProofs.v` and others (lemmas), `XProps.v` (the property theorems, named `Cnn_...`,
  each with `Print Assumptions` and an `Example` that meets its hypotheses).
* A panic is an explicit value (`None` or a constructor), never a default. Loops that
  may not terminate take fuel and say explicitly that it ran out.
* Machine integers are `Z`/`N` with the wrap written out where it can matter
  (`i32` index arithmetic, `as usize`, the `u32` id counter). The build modelled is
  the release profile (wrap on overflow); where a debug build panics instead, the
  comment says so, or the overflow checks are a parameter (terminal interface).
* `f32` is `SpecFloat` with precision 24 and maximal exponent 128 (`F32.v`), `f64` the
  same with 53 and 1024 (`F64.v`): the standard library's axiom-free executable
  IEEE-754 semantics.
* Hash iteration order, heap tie-breaking, random draws, thread interleavings, message
  timings and all user code (agents, state hooks, closures, fitness functions) are
  universally quantified arguments.
* A property that is false of the code gets a theorem `..._refuted` with a concrete
  witness, beside the strongest positive theorem we could prove, which is called
  `..._partial` when it needs a hypothesis the property does not have.

## What is modelled and how each property is proved

| ids | code | model | proof |
|-----|------|-------|-------|
| C01-C06, C08, C63 | `engine/schedule.rs` (sequential), `agentimpl.rs`, hooks of `agent.rs`, `state.rs` | `SchedModel`: abstract agents and state; queue as a list with an arbitrary tie-break; hooks are programs over the schedule API; `ParHistModel` for C04 in the parallel build; the diary of C04 is `BookSpec` | invariant over programs of calls and steps; permutation and sortedness of what ran |
| C07 | `engine/priority.rs` | `prio_cmp` on f32 | case analysis; NaN refuted |
| C09, C10 | `schedule.rs` (parallel) | `ParModel`: worker threads in micro steps (lock, call, push, release), any interleaving | invariant, progress measure; equality with the sequential step refuted |
| C11 | `simulate!` without terminal, `simulate_old!` loop, `simulate_explore!` | `SimModel` | induction on steps and repetitions |
| C12-C15, C56 | `utils/dbdashmap.rs`, `utils/ref.rs` | `DashModel`: vectors of shard maps, any hash; micro steps of the shard locks for C14 | refinement to two maps; linearizability by commutation |
| C16-C21, C57, C58 | dense and sparse number grids, both builds | `NumModel` | refinement to a pair of partial functions; equivalence of both grids; `NumCellSpec` follows one cell through a history |
| C22-C27, C59-C62, C64 | dense and sparse object grids, both builds | `ObjModel` | refinement to bags; interleaving for C59; `ObjBagSpec` and `PBagSpec` follow one bag through a history |
| C28-C32, C73, C74 | `fields/field_2d.rs` (sequential) and the torus functions | `FieldModel` over any arithmetic; f32 and real instances | refinement of bags; geometry over the reals; error bounds and computed refutations in f32; `FieldNearSpec` gives the exact answer of the queries |
| C33-C38, C65-C68 | `fields/network.rs` (sequential) | `NetModel` | refinement to a multigraph; invariants over histories; random draws as oracle |
| C87-C91 | `fields/field_2d.rs` (parallel) | `PFieldModel` over `DashModel`; `DashView` gives the maps' contents; micro steps of a placement for C91 | refinement to published and written placements; the lost-object interleaving refutes C91 |
| C92-C99 | `fields/network.rs` (parallel) | `PNetModel` over `DashModel` | refinement to an edited graph and what the last update published; random draws as oracle |
| C100-C103 | `explore/aws/genetic.rs` (search loop, lambda function, messages; JSON by a parser in the model) | `AwsModel` | split of the work, round trip of messages through JSON, the parser accepts exactly the grammar of `JsonSpec`, loop invariant; network as oracle |
| C104-C110 | `visualization/*` (event loop as far as it acts on the simulation, sprites, grids, lines, textures, images) | `VisModel` | invariants over frames and clicks; user graphics code and iteration orders quantified over |
| C111-C113 | `lib.rs` (`write_csv`, `load_csv!`), dataframes | `CsvModel` | grammar of csv files as specification; reader by induction on the grammar, writer into it; invariant of the buffer |
| C114-C115 | `lib.rs` (`simulate_mpi!`, `simulate_old!`) | `OldModel` | collective calls counted from the trace; widths by digits |
| C116-C118 | `schedule.rs` (both builds), `simulate!`, number grid and `field_2d.rs` together; user programs shaped like tests/model/flockers | `OrderModels` over `SchedModel`, `ParModel`, `SimModel`, `NumModel`, `FieldModel` | commuting turns give equal results for permuted turns; simulation relation over steps and repetitions |
| C119-C121 | closures of the iterations and of `apply_to_all_values` that use the same field: which `RefCell` borrows each method of the four sequential grids and of `Field2D` takes, and for how long | `ReModel` over `NumModel`, `ObjModel`, `FieldModel` | programs as trees of calls; borrows nobody asks for do not matter; buffers nobody changes stay; agreement with the grid models for closures that do not use the grid |
| C122 | simulations of the shape of `tests/model/flockers`, from `init` on: scheduler, `Field2D` and `simulate!` together | `FlockModel` over `OrderModels`, `FieldModel`, `SchedModel`, `SimModel` | invariant between steps: all events at one time, the population readable and nothing being written; the bags after the turns are those of the moved agents in turn order |
| C123 | liveness of `Schedule::step` | `SchedModel` (no new definitions) | a measure in half time units of the work left before the agent's time; `t + 1.0` is at least `t + 1/2` up to 2^24 by Flocq's error bound, so each step makes it smaller; a repeating agent stays at or below 2^24 |
| C124 | simulations of that shape on `DenseGrid2D` and `SparseGrid2D`, from `init` on | `StageModel` over `ObjModel`, `SchedModel`, `SimModel` | the same invariant for any space with placing, publishing and looking; its laws are proved of the two grids |
| C125 | the mutexes of `simulate!`, of the macros, of the terminal, of the parallel schedule and of the parallel fields: who takes which, in which order, until when | `LockModel` | locks are taken in a fixed order, or by at most one thread while holding another: somebody can always move, and every move shortens what is left |
| C126 | distributed simulations of the shape the comments of `kdtree_mpi.rs` describe, from `init` on: Kdtree, schedules and `message_exchange` together | `DistModel` over `KdModel`, `SchedModel`, `MpiModel` | the exchange delivers what the lockstep run delivers (C53); in lockstep an invariant over all processes: every agent in one schedule, in one readable tree, with the id that is remembered for it |
| C127 | simulations of the parallel build from `init` on, on the parallel grids and field, and the loop of `simulate!` around them | `PStageModel` over `ParModel`, `ObjModel`, `PFieldModel` | an invariant between steps, kept by every interleaving because agents run one at a time under the lock of the state; the calls of the loop by induction; agreement with C124 by induction over the steps |
| C128 | the counters `nagents` and `density_estimation` of `Field2D` and `Kdtree` | `FieldModel`, `KdModel`; specification in `CountSpec` | induction over the history: the counters follow the placements before the first `lazy_update` and are constant after it |
| C129 | the agents returned by `before_step` and `after_step` of both builds | `FaultModel`; specification in `FaultSpec` | two programs that differ only in what they return are run side by side: every step of either build is the same |
| C130 | panics of the methods of agents, unwinding, poisoned mutexes, both builds | `FaultModel`; specification in `FaultSpec` | simulation by the panic-free step up to the panic; invariant over micro steps: one panic, all other threads before the lock; weight decreases (no deadlock) |
| C131 | the builder `Visualization`, the camera at the start and after resizes, places of textures and sprites | `CamModel`; specification in `CamSpec` | last resize decides (induction over the frames), then field arithmetic over R; f32 instance for the NaN |
| C132 | `THREAD_NUM` and Rust's integer parser | `ThreadModel`, `NumText`; specification in `ThreadSpec` | parser shown equal to the standard library's decimal notation |
| C133 | the speed slider of `visualization/systems/ui_system.rs`, f64 and durations | `SpeedModel` | relative error bounds of the two divisions; rounding to nanoseconds absorbs them; induction over frames |
| C134 | `Schedule::step` of both builds with hooks of the state that may panic, and programs that catch the panics | `HookModel` (`hstep`, `hpar_step`, `hacts`), `HookHistModel` (`hpar_acts`), on `FaultModel` | the step compared with that of the program whose hooks return; induction over histories |
| C135 | the labels of the panel in each frame; rendering, redrawing and despawning the picture of a number grid | `PanelModel` (`panels`, `g_run`), on `VisModel` | induction over frames against a count made from the clicks; invariant over events (handles are in range, one per render) |
| C136 | the dense grids with locations outside them and with any sizes | `NumModel`, `ObjModel`, `Grid` (`cell_index`) | each call compared with the call at the cell of the same number; induction over histories |
| C137 | simulations on object grids and in fields, of both builds, with births in `after_step` and deaths by `is_stopped` | `BirthModel`, `PBirthModel`, on `StageModel`, `PStageModel`, `ObjModel`, `FieldModel`, `PFieldModel`, `SchedModel`, `ParModel` | invariant over steps: all events at one time, ids below the counter, space = population; keys by permutation; in the parallel build for every interleaving |
| C138 | `explore!` and `evolutionary_search!` with a `ComputingMode` | `DispatchModel`, on `ExpModel` | cases over features and modes; agreement of the explorations (C43, C44) |
| C139 | `visualization/utils/arrow.rs` | `ArrowModel`, over the real numbers | polar coordinates by cases on the quadrant, addition theorems |
| C39-C41, C69 | `fields/hnetwork.rs` | `HNetModel` | refinement to a hypergraph; invariants over histories |
| C42-C45 | `build_configurations!`, `explore/model_exploration.rs`, `explore/mpi/model_exploration.rs` | `ExpModel` | list induction and arithmetic |
| C46-C48, C70-C72 | `explore/genetic.rs`, `explore/mpi/genetic.rs` | `GaModel` | loop invariants for arbitrary user functions |
| C49-C51 | `explore/random_search.rs`, `explore/bayesian.rs`, `gen_param!` | `OptModel` | loop invariants; f32/f64 facts |
| C52, C75-C78 | `fields/kdtree_mpi.rs` | `KdModel` over any arithmetic | induction on splits; geometry; computed refutations |
| C53 | `Kdtree::message_exchange` | `MpiModel`: all processes interleaved over an MPI network | inductive invariant, progress measure |
| C54, C81 | `plot!`, `addplot!`, csv thread of `simulate!` | `PlotModel`: simulation and csv thread interleaved | invariant over histories; confluence of the interleavings |
| C55, C79, C80, C85 | `utils/monitoring/ui.rs` | `UiModel` | invariants over sessions; f64 axis bounds over the reals |
| C82, C86 | `simulate!` with the terminal | `TermModel`: simulation and terminal threads interleaved | simulation relation with `SimModel`; progress measure |
| C83 | `log!`, log file | `LogModel` | induction over interleavings |
| C84 | `check_reproducibility!` | `ReproModel` | induction on steps |

## Code that is not modelled

* `src/visualization/*`: the FPS label, colours and widths, rounding in the shape of arrows; Bevy itself (order of systems and of commands is taken from its documentation).
* `src/explore/aws/genetic.rs`: deployment (scripts, queue creation, copying of sources) and its removal; the nesting limit of serde_json (128) and its rejection of numbers out of range.
* The text printed by `simulate_old!` and `simulate_mpi!` (only the widths of its columns are modelled, and only for the former); the crate `csv` is modelled by its documented behaviour.
* `store_plot` (PNG files), `description!`, popups, colours and layout of the terminal.
* Panics of user closures outside the methods of agents and the hooks of a step, aborts and double panics: not modelled (panics of agents are, C130, and of the hooks of a step, C134).
* clap: how the command line is split into options (an unknown option ends the program).

Within the modelled files, each model file says at its top, and each definition in its
comment, what was left out (printing, timing, layout of the screen, I/O errors).

## Trusted base

* Coq's kernel (`coqc`; the compiled files can be re-checked with `coqchk`).
* The reading of `/repo` recorded in the citations. The model is written by hand; nothing
  connects it to the Rust program mechanically.
* The assumptions about external crates written in each model file: priority-queue pops a
  maximal element and keys by `Eq`; hashbrown and std maps are finite maps; `rand` returns a
  value in the requested range; mutexes and channels of std behave as documented; MPI
  delivers messages between two processes in order; tui's gauges assert their ratio.
* The standard library's axioms, for these theorems only:

  * `classic`, `functional_extensionality_dep`, `sig_forall_dec`, `sig_not_dec`: `C06_time_monotone`, `C06_advances_by_one`, `C28_history`, `C29_f32_partial`, `C29_rounding_refuted`, `C32_transform_f32_partial`, `C32_distance_f32_partial`, `C32_refuted`, `C52_f32_partial`, `C55_no_panic_partial`, `C55_no_panic_release`, `C55_up_refuted`, `C75_touch_f32_partial`, `C76_halo_f32_partial`, `C80_samples`, `C80_axis_partial`, `C80_newest_refuted`, `C85_axes_partial`, `C89_f32_partial`, `C118_number_grid`, `C118_field_partial`, `C122_synchronous`, `C122_population`, `C122_simulate`, `C123_gets_its_turn_partial`, `C123_again_and_again_partial`, `C123_births_partial`, `C123_births_again_partial`, `C124_dense`, `C124_sparse`, `C126_conserved_partial`, `C126_synchronous_partial`, `C127_same_as_sparse`, `C127_same_as_dense`, `C127_same_flock`, `C133_chosen`, `C133_left`, `C133_session`, `C133_shown`, `C137_dense`, `C137_sparse`, `C137_field`, `C137_parallel_grid`, `C137_parallel_field`, `C139_arrow`, `C139_point`.
  * `functional_extensionality_dep`, `sig_forall_dec`, `sig_not_dec`: `C29_plane_exact`, `C29_torus_exact_partial`, `C29_torus_refuted`, `C30_inner_partial`, `C30_answer_partial`, `C30_own_bag_refuted`, `C30_next_bag_refuted`, `C30_torus_refuted`, `C30_answer_partial`, `C32_transform_exact`, `C32_distance_exact`, `C52_tiles_exact`, `C75_touch_exact`, `C76_halo_exact_partial`, `C78_sound_exact_partial`, `C78_inner_partial`, `C78_answer_partial`, `C78_torus_refuted`, `C89_answer_partial`, `C89_plane_exact`, `C89_inner_partial`, `C131_shows`, `C131_fills_partial`, `C131_cells`, `C131_dimensions`, `C131_window_refuted`, `C131_narrow_refuted`, `C131_first_refuted`.
  * `functional_extensionality_dep`, `sig_forall_dec`: `C30_visits_torus`, `C30_visits_plane`.

  These are the axioms behind `Coq.Reals` (`ClassicalDedekindReals.sig_not_dec` and
  `.sig_forall_dec`, `FunctionalExtensionality.functional_extensionality_dep`) and
  `Classical_Prop.classic`, which Flocq's rounding lemmas use. Flocq itself adds none.
  `Print Assumptions` says "Closed under the global context" for the other 483 theorems
  in MANIFEST.json.

There is no `Axiom`, `Parameter`, `Admitted`, functor or module type of our own, and no
kernel check is switched off.

## Testing the theorems

`seeded/LOG.jsonl` has one line per wrong program tried: the definition that was edited in a
scratch copy, the edit, the claim it breaks, the theorems that failed to prove, and the
theorems tightened when something survived. 1014 so far.

## Where the code does not do what a user expects

Each of these has a `..._refuted` theorem with a concrete run.

* C04: `C04_wrap_refuted`. C04_bookkeeping is the property as stated (up to 2^32 scheduling calls, no schedule_once). C04_diary and C04_parallel_diary cover every history of both builds without hypotheses, with schedule_once, reused ids and the wrap-around of the id counter: the schedule always holds exactly what a diary of the calls and turns holds, and every answer is the diary's. C04_wrap_refuted shows that the bound of C04_bookkeeping is needed: after 2^32 calls the id counter wraps and an agent is dropped.
* C05: `C05_schedule_once_refuted`. False of the code when the caller-chosen id is already queued (refuted); proved for fresh ids.
* C06: `C06_saturation_refuted`. Monotonicity proved; advance by one proved for integral times up to 2^24; at 2^24 the code violates it (refuted).
* C07: `C07_nan_refuted`. Proved for all non-NaN times; refuted for NaN.
* C10: `C10_refuted`. False of the code: the parallel step pops the whole queue whatever the times. Proved for queues whose events all have the same time.
* C15: `C15_refuted`. False of the code: insert removes the entry first and always returns None. Proved: it always returns None, which is the documented answer only for an absent key.
* C17: `C17_out_of_range_refuted`. Distinct in-range cells are independent (dense) and all locations are (sparse). Refuted for the dense grid when y is out of range: the location is accepted and aliases a cell of another column.
* C19: `C19_sparse_random_refuted`. Dense grid fully proved. Sparse get_random_empty_bag never returns on a full grid, so the property is refuted there; otherwise it returns an empty cell as soon as it draws one.
* C20: `C20_dense_write_refuted`, `C20_sparse_readwrite_refuted`. Dense WRITE transforms the read state instead of the write state; sparse READWRITE skips locations only present in the write state. What they do compute is proved. C20_dense_history and C20_sparse_history give every cell and answer after any history with apply_to_all_values among the other calls.
* C21: `C21_apply_refuted`. Proved for the calls listed in the property, plus apply READ. apply WRITE and READWRITE differ (refutation included).
* C23: `C23_stale_objects_refuted`, `C23_apply_panics_refuted`. After update the reads equal the unbuffered reads, and mixed histories are characterised exactly; but update keeps the write buffer (stale objects are published again) and makes a later apply READ panic, so the two cannot be mixed freely.
* C25: `C25_refuted`, `C25_alike_refuted`. False of the code: placing an object again leaves it at the old location too. Proved when all placements of the object in the epoch name one location.
* C26: `C26_dense_location_refuted`, `C26_dense_write_refuted`, `C26_sparse_none_refuted`, `C26_sparse_readwrite_refuted`. False of the code: the dense grid passes the location of another cell, READWRITE ignores None, WRITE appends; the sparse grid panics on None and READWRITE drops objects. The exact behaviour is proved. C26_dense_history_partial and C26_sparse_history_partial give every bag and answer after any history of calls that does not panic; the sparse theorem also says exactly when the next apply_to_all_values panics.
* C28: `C28_alias_refuted`, `C28_large_refuted`. Proved in f32 for locations in the field and up to 2^24 cells, and for any arithmetic whenever the sizes are countable. Refuted outside: past the far border a location aliases the next column, and a 4097x4097-cell field has one bag too few and panics.
* C29: `C29_torus_refuted`, `C29_rounding_refuted`. Proved for the algorithm with exact numbers (not toroidal) and in f32 for power-of-two discretizations. Toroidal fields exceed the distance (refuted), by at most the discretization (proved). In f32 with discretization 0.1 rounding also breaks it (refuted).
* C30: `C30_own_bag_refuted`, `C30_next_bag_refuted`, `C30_torus_refuted`, `C30_repeated_refuted`. False of the code in four ways (refuted: own bag, next bag, across the torus border, repeated objects). Proved: objects closer than dist - discretization are found; at most once in toroidal fields or away from the border. C30_answer_partial gives, for exact numbers, the exact answer of both queries after every history: which placements are selected and how often each is returned.
* C32: `C32_refuted`. Proved with exact numbers. In f32 the results are the rounded ones: bounds, error and antisymmetry proved, but toroidal_transform can return dim itself (refuted).
* C33: `C33_refuted`. Symmetric, with the same options, after every good history (removals between nodes joined at most once). False in general: remove_edge between nodes joined twice removes one entry on one side and all on the other.
* C34: `C34_removed_refuted`, `C34_readded_refuted`. Ids are unique and get_object inverts get_id for histories without remove_node that add different nodes, and for histories with remove_node in which the next id is free when a node is added. False in general: the id is the number of nodes, so it collides after remove_node and after re-adding a node.
* C36: `C36_unpublished_refuted`, `C36_parallel_refuted`, `C36_panic_refuted`, `C36_unpublished_kept_refuted`. Holds when the node and the far ends of its edges are published and, if directed, no two edges to it come from one node. False otherwise: dangling edges stay or the call panics.
* C37: `C37_short_slice_refuted`. For every network reached by a good history whose nodes are the first n entries of the slice. With a slice shorter than the network the code panics.
* C38: `C38_parallel_refuted`, `C38_panic_refuted`. Exactly the edge is removed when the nodes are joined once; directed: the first of several. Undirected and joined twice: more is removed on the far side. Panics after remove_all_edges.
* C39: `C39_refuted`. Proved for every history: a node's list holds only hyperedges it is a member of. Proved for histories satisfying hgood (spec): a listed hyperedge is listed by exactly its members; add_edge true + update lists it at exactly its members and changes no other list; remove_edge takes it out of every list and nothing else. The unconditional claim is false: add_edge naming a node twice answers false after adding the hyperedge to the first member's list only (C39_refuted).
* C40: `C40_unpublished_refuted`, `C40_panic_refuted`. Proved for histories satisfying hgood. False in general: hyperedges added since the last update survive their member, and remove_object panics after remove_all_edges.
* C41: `C41_frozen_refuted`, `C41_ids_refuted`, `C41_again_refuted`. get_object is frozen between updates for every history; get_edges/get_edge only as long as no node is added or removed (names are not buffered, C41_frozen_refuted). Ids are unique without removals of objects or when the next id is free; false in general (C41_ids_refuted).
* C42: `C42_empty_refuted`. Proved for non-empty inputs: the table's columns are exactly the Cartesian product, once each, in lexicographic order. Refuted for empty inputs: a division by zero panics. C42_row_lengths states how much longer than needed the rows are.
* C43: `C43_results_refuted`, `C43_numbering_refuted`, `C43_matched_refuted`. One row per configuration and repetition, in order, proved for both versions. That both give the same results is proved only for simulations that reset the state; refuted in general (the sequential version reuses the state across repetitions, and numbers repetitions from 1). Matched inputs of unequal lengths panic or are cut.
* C44: `C44_zero_reps_refuted`. Partition, balance, counts and displacements, gather and equality of the results with the sequential exploration up to order proved for at least one repetition; refuted for zero repetitions (panic at the root).
* C45: `C45_refuted`. Refuted: conf_num is the index local to the rank. C45_number_partial states exactly what it is: the configuration divided by the number of processes.
* C46: `C46_nan_refuted`. Rows, panics and termination for every search; the best for every comparison that is a strict weak order (or a total preorder) on the scores, such as > (or >=) on f32 without NaN. With NaN, where > is no strict weak order, the reported best can be NaN (C46_nan_refuted).
* C47: `C47_refuted`. Rows extend those of the sequential search, and both stop in the same generation unless a selection leaves exactly one individual, where the sequential search stops and the parallel one goes on (refuted).
* C50: `C50_refuted`. Proved whenever some evaluated value exceeds the least finite f64 (also with NaN values). Refuted for an objective that is minus infinity everywhere: the reported value is f64::MIN. The Gaussian process and the normal distribution are external and arbitrary.
* C51: `C51_zero_refuted`, `C51_top_refuted`, `C51_f32_refuted`, `C51_equal_floats_refuted`. Proved for integer types unless both bounds are the greatest value, and for floats with different bounds. Refuted: n = 0 gives no value, equal greatest bounds panic, equal floats draw from [x, x+1), equal f32 bounds of 2^24 panic.
* C52: `C52_border_refuted`, `C52_gap_refuted`. p blocks with ids 0..p-1 for any arithmetic; tiling proved for exact numbers and for f32 sizes that are never rounded. Refuted in f32 in general: border points and even inner points belong to no block and get_block_by_location panics.
* C53: `C53_ready_refuted`, `C53_argument_refuted`. All networks, contents, numbers of calls, schedules and send bufferings, when a ready send is treated as a send: exact delivery, no error, no deadlock, bounded work, completion. Refuted: the ready send can precede the posted receive (an error in MPI), and with_regions=false ignores the argument.
* C54: `C54_infinite_refuted`, `C54_expression_refuted`, `C54_csv_refuted`. For every history of addplot!/plot!/clear the stored plot shows exactly the calls after its first addplot! and bounds are exact for finite values. The full claim is false of the code: an infinite point leaves the bound at f64::MAX, the argument expressions are evaluated several times, and csv plots panic without the terminal.
* C55: `C55_up_refuted`, `C55_reps_refuted`. Tab index always in range, cyclic navigation, which keys show the charts, the description and the selection, quitting and no panic are proved for every session; with overflow checks Up, Up before the first log panics (release: selects log 2^64-1), and zero repetitions panics at the first drawing.
* C56: `C56_more_cpus_refuted`, `C56_fewer_cpus_refuted`. False of the code when the reported processor count changes; proved when it does not. C56_panics: exactly when the calls panic.
* C57: `C57_refuted`. update and apply READ differ between the builds; the remaining calls agree. C57_parallel_history gives every cell and every answer of the parallel build after every history of the calls it offers; C57_cell_difference says after which calls a cell of the two builds parts.
* C59: `C59_refuted`. False of the code: two threads placing at a fresh location can lose one object. Proved when a bag exists at the location beforehand.
* C60: `C60_panic_refuted`, `C60_not_removed_refuted`. False of the code: panics after a publication, and leaves unpublished objects in their bag. Proved when the published location is also the current one. C60_every_history_partial covers every history of calls, with remove_object, update and apply_to_all_values: bags, locations and answers are those of PBagSpec, and a history panics exactly in a remove_object of an object whose published location was not used since.
* C61: `C61_two_places_refuted`, `C61_removed_refuted`, `C61_apply_refuted`. The reads are as stated; but get_objects and get_location can disagree after a move, a removal or apply_to_all_values. C60_every_history_partial covers every history of calls, with remove_object, update and apply_to_all_values: bags, locations and answers are those of PBagSpec, and a history panics exactly in a remove_object of an object whose published location was not used since.
* C67: `C67_removed_all_refuted`. Holds for good histories without remove_all_edges; after it the answer is None, against the documentation.
* C68: `C68_removed_refuted`. For good histories without remove_node; after remove_node the ids have a gap and printing panics.
* C69: `C69_panic_refuted`. Proved as stated, for every history satisfying hgood (the conditions of the statement, in HNetSpec.v). C69_panic_refuted: outside them remove_edge panics.
* C70: `C70_size_refuted`, `C70_grow_refuted`, `C70_thousand_refuted`, `C70_few_refuted`. Proved when all populations have one size that is at least the number of processes and no score is 1000. Refuted otherwise: a shrinking population is selected by the scores of an earlier generation, a growing one panics, a score of 1000 panics, fewer individuals than processes panic.
* C71: `C71_dummy_refuted`. Fitness, generation and shown individual proved under the hypotheses of C70; the reported row is the dummy with fitness 1000 whenever no score beats 1000 (refuted).
* C72: `C72_refuted`. Proved when every selection leaves at least two individuals; refuted when one leaves fewer before the last generation: the root leaves the loop alone.
* C73: `C73_location_refuted`. Exactly once each, proved; the location passed is the lower corner of the cell, not the object's location (refuted).
* C74: `C74_documented_refuted`. The returned cells are exactly the empty ones, including an extra row and column on the far border, so the documented count is wrong (refuted).
* C75: `C75_rounding_refuted`. Mutual, increasing, in range for any arithmetic; touching blocks exactly for exact numbers and unrounded f32; refuted by rounding in general.
* C76: `C76_halo_refuted`, `C76_rounding_refuted`. What is sent, for any arithmetic; the geometric guarantee for power-of-two grids of blocks (exact and unrounded f32). Refuted in general: with an irregular subdivision, and by rounding, near agents are not sent.
* C77: `C77_removed_refuted`, `C77_dropped_refuted`. Storage and mail lists for any history; refuted: removed agents stay in the halo mail, and agents addressed to a process that is no neighbour are dropped.
* C78: `C78_same_place_refuted`, `C78_torus_refuted`, `C78_clipped_refuted`. No panic, each at most once, sound up to one discretization step, complete one step inside the distance without wrapping; for exact numbers the exact answer after every history. Refuted: other agents at the query location, agents across the border; the relaxed query is cut to the halo distance.
* C79: `C79_home_refuted`. Holds for every plot not named Home; a plot named Home is never shown.
* C80: `C80_newest_refuted`. The samples are always the last 101; they lie on the axis for the first 100 steps; from step 101 on the newest sample is always outside the axis.
* C81: `C81_init_refuted`, `C81_names_refuted`. Under every interleaving, each file holds exactly the rows of its repetition, and the threads finish. The full claim is false: rows plotted in init go to the previous repetition's file (or are lost), and names that differ only in '/' and '-' share a file.
* C82: `C82_early_end_refuted`, `C82_returns_refuted`. Same simulation under every interleaving if the user does not quit and end_condition ends no repetition but the last; each step shown at most once. Refuted otherwise: an early end_condition can drop later repetitions depending on timing, and the quit message can be overwritten so that the terminal never closes by itself.
* C84: `C84_sound_refuted`, `C84_shorter_refuted`. A model that is reproducible is always found so. What is compared are the agents after init and after every step. A positive verdict is right for agents of the same listed type up to the end of the first execution. Refuted: agents of different types are not compared, a longer second execution is not noticed, a shorter one panics.
* C85: `C85_negative_refuted`. Holds for finite values when some point has y >= 0; with only negative y the highest point is above the axis.
* C86: `C86_lost_refuted`. At most once and in order under every interleaving, and the chart shows exactly what was reported; refuted: a finished repetition can be missing.
* C88: `C88_moved_refuted`, `C88_update_refuted`, `C88_vanished_refuted`. False in general: an object placed twice before a publication is read in both bags (set_object_location never removes it from the old bag); with update an object that moved is still read where it was; with update after lazy_update an object with a location can be in no bag. Holds with lazy_update only when no object is placed twice between two publications.
* C89: `C89_no_room_refuted`, `C89_empty_refuted`, `C89_panic_refuted`. Equal to the sequential field exactly when at least one object is published and the estimated capacity can be reserved; otherwise both queries panic (division by zero on an empty field, capacity overflow for large distances). The size of a reserve that fits the address space but not the memory is not modelled. C89_answer_partial gives, in exact arithmetic, the whole answer of both queries after any history without update.
* C90: `C90_panic_refuted`, `C90_old_refuted`. get_location_unbuffered panics where it should answer None: for every object not placed since the last lazy_update. get_unbuffered returns the first equal object of the bag, not the one placed last.
* C91: `C91_lost_refuted`, `C91_reader_panic_refuted`. False in general: two threads that both find a bag missing each insert their own, and one object is lost. Holds for cells written by one thread and for cells that already have a bag. A reader using get_unbuffered during a placement can panic.
* C93: `C93_removed_refuted`. Proved for histories without remove_node; refuted with it: the node is unknown at once and get_edge on its neighbours panics before the next update.
* C94: `C94_published_refuted`. As stated it is false: only the edges never published disappear; the published lists stay, and the next remove_edge panics. Proved: exactly that, for every history.
* C95: `C95_object_refuted`, `C95_inherits_refuted`, `C95_shared_id_refuted`. Proved for good histories without remove_all_edges. Refuted: get_object still shows the removed node, a node added later inherits the published edges of a removed one, and two nodes can share an id.
* C96: `C96_parallel_refuted`. Proved for histories without remove_all_edges: nodes joined at most once, or directed networks (the first of several). Refuted for undirected networks with parallel edges; after remove_all_edges remove_edge panics (C94_published_refuted).
* C97: `C97_stale_refuted`, `C97_short_slice_refuted`. Proved for nodes that receive edges (every node of an undirected network when m >= 1). Refuted: a directed node without outgoing links keeps its old published edges; a slice shorter than the network panics; a slice of one node publishes nothing.
* C98: `C98_self_loop_refuted`. The candidates, their weights, the amount drawn and the edges added, for every draw. Refuted: that the other node is different from u (self loops happen).
* C99: `C99_refuted`. Proved for histories without remove_all_edges; refuted with it: one end keeps a stale edge.
* C100: `C100_no_functions_refuted`. Every population, repetitions and positive number of functions; the boundary is shown too: with 0 functions the search panics.
* C101: `C101_more_functions_refuted`, `C101_late_refuted`, `C101_twice_refuted`, `C101_text_refuted`, `C101_nan_refuted`, `C101_index_refuted`. Proved when each message arrives once and in time, individuals are plain text (no quotes, backslashes or control characters), fitness prints as a JSON number and there is at least one evaluation per function. The reader of messages accepts exactly the JSON texts (C101_json) and gives exactly the rows in them (C101_decode). Refuted outside: more functions than evaluations always panic; a result later than 20 s panics; a message delivered twice puts evaluations of an earlier generation into a later one; an individual with a quote is replaced or panics, one with an escape is reported as what the escape stands for; a NaN fitness panics; the index is the position in the message, not in the population.
* C102: `C102_negative_refuted`. Proved on every network when some fitness is positive; otherwise the report is fitness 0 and an empty individual, which is no row.
* C103: `C103_refuted`. Refuted: every repetition is a candidate of its own; what holds instead is proved: with selection and crossover that keep the number of individuals the population is multiplied by $reps in every generation.
* C104: `C104_end_refuted`. Proved for all histories, paused or playing at the start: one step per unpaused tick, and agreement with simulate! when end_condition always says no. Refuted: the window never calls end_condition, so it goes on where simulate! stops.
* C105: `C105_graphics_refuted`. Proved for the simulation. Refuted for the screen: the visualisation state is not reset, so the sprites after Stop can differ from those at the start.
* C106: `C106_new_agents_refuted`, `C106_hide_refuted`, `C106_drift_refuted`. Proved: one sprite per agent with a render at start and after Stop, and each tick redraws every sprite half a unit above where update puts it. Refuted: agents scheduled later get none, update cannot hide a sprite, and an update that leaves y alone makes it climb by 1/2 per tick.
* C107: `C107_place_refuted`. Proved: one sprite per published object at start, and the place of each sprite after each frame. Refuted: an object that does not move jumps from y - 1/2 to y + 1/2; sprites of objects that left stay and new objects get none.
* C108: `C108_back_refuted`, `C108_edges_refuted`. Proved: the exact path of each line after any sequence of frames, right whenever an end is not where it started. Refuted: a line is stale when both ends are back where they started, and edges added or removed later are not shown.
* C111: `C111_strings_refuted`. Proved for all names and rows of equal length (at least one field, first name not starting with a byte order mark), all quoting choices and buffer sizes, if the disk has room. C111_integers: tables of integers of any integer types come back through load_csv!, value by value. Refuted for strings in dataframes: they are printed with Debug and come back with quotes.
* C112: `C112_header_refuted`. Proved for every text of the grammar in CsvSpec, with or without a byte order mark, with the exact condition for a panic. Refuted for files without a header, whose first record is dropped.
* C113: `C113_ok_refuted`. Proved: what each result implies, that the file is always a prefix of what should be there, and that Ok loses at most one buffer. Refuted: with a full disk Ok is returned and nothing is written.
* C114: `C114_end_refuted`, `C114_reps_refuted`. Proved: each process runs simulate!'s simulation; with one repetition all complete exactly when end_condition said no equally often in all. Refuted: processes that end at different steps deadlock, and two or more repetitions never complete, since MPI is finalised after each.
* C115: `C115_report_refuted`, `C115_all_steps_refuted`, `C115_long_run_refuted`. Proved when the report fits its columns, with the exact condition. Refuted otherwise: more than 15 digits of steps and repetitions together, or a run of 10000 seconds, make the width of a column negative.
* C116: `C116_shared_refuted`. Proved as stated, for all simulations that meet its conditions (record independent of OrderSpec.v, keys distinct in the queue of every step). C116_shared_refuted shows that the conditions matter: for agents that write a shared place the tie-break decides.
* C118: `C118_order_of_neighbours_refuted`. Full for number grids. In a Field2D proved if the rule does not depend on the order in which neighbours are listed; a sum of f32 over the neighbours, as in flockers, does depend on it (refuted).
* C119: `C119_field_relax_refuted`. Proved for the four sequential grids, for every closure that does not itself call apply_to_all_values with READ (which changes the published buffer); the *_calls theorems need no condition beyond making plain calls. False of Field2D: get_neighbors_within_relax_distance borrows the published bags for changing (field_2d.rs L509), so a closure of iter_objects that calls it panics; proved for closures that do not. C119_field_relax_partial: the call is harmless when its distance is not positive or its window holds no bag.
* C120: `C120_dense_objects_refuted`, `C120_sparse_objects_refuted`, `C120_sparse_numbers_refuted`, `C120_field_refuted`, `C120_dense_numbers_refuted`. False: in the object grids, the sparse number grid and Field2D the write buffer stays borrowed while the closure runs, so a closure that starts by placing or removing panics as soon as there is an item. The dense number grid copies each value out first: a closure may rewrite the cells, but the iteration then visits what it writes ahead. The equation is proved for closures that do not change the write buffer. The _looking theorems say it in terms of calls: any closure made of calls other than placing and removing runs as if it were called on each item in turn.
* C121: `C121_dense_numbers_refuted`, `C121_own_buffer_refuted`, `C121_nested_refuted`. Proved for the object grids and the sparse number grid with all three options, and for the dense number grid with READ and WRITE. False of the dense number grid with READWRITE, which borrows the published buffer for changing (dense_number_grid_2d.rs L182): a closure that reads published values panics. C121_own_buffer_refuted: using the buffer that is worked on panics in all four grids. The _looking theorems describe the closures by the calls they make. C121_nested_refuted: apply inside apply panics, except READ and WRITE in the sparse grids.
* C123: `C123_starved_by_hooks_refuted`, `C06_saturation_refuted`. False as stated: an agent waiting after time 2^24 is starved by repeating agents whose f32 time no longer advances (C06_saturation_refuted), and one waiting behind a hook that schedules a one-shot agent at the current time in every step never runs (C123_starved_by_hooks_refuted). Proved for an agent at a finite time of at most 2^24 when everything before it is at a finite time of at least -2^24 and the hooks of the step schedule nothing (they may read and dequeue others): it runs after a number of steps that depends only on the queue, for every agent behaviour and tie-break; a repeating one runs any number of times in every endless run unless it reports is_stopped. The births theorems extend this to hooks and calls that schedule any number of agents at times later than the current one. Missing: hooks that schedule at the current time only finitely often; the parallel build runs every queued agent in each step (C09).
* C124: `C124_lookalikes_refuted`. For user programs of the shape of tests/model/flockers over a grid of bags (StageModel.v), with arbitrary cells looked at, rule, stop and end condition. Assumed: == tells the agents apart by an id the rule keeps (without that the dense grid loses agents that meet, C124_lookalikes_refuted), on the dense grid agents stay on the grid, fewer than 2^32 agents and 2^64 steps. C124_flag: the model does not lose a panic.
* C125: `C125_plot_in_plot_refuted`, `C125_log_in_log_refuted`, `C125_closure_refuted`, `C125_two_closures_refuted`, `C125_two_threads_refuted`. False in general: plot! inside an argument of plot!, log! inside the message of log!, or a closure of apply_to_all_values (WRITE, READWRITE, parallel build) that looks at its own shard hangs its thread whatever the others do; two user threads that log while plotting and plot while logging, or whose closures look into each other's shards, can block each other. True, for every interleaving and with a bound on the number of moves: one model thread that never reaches a macro inside an argument of one that holds a lock it needs, among threads that take one lock at a time (the sequential build); and any number of threads with agents and hooks under the state lock, field methods, and macros whose arguments do no more than log and use fields (the parallel build). Waiting for messages, keys and the end of threads happens without locks and is left out, as are panics.
* C126: `C126_jump_refuted`, `C126_clock_refuted`. For every schedule of processes and network when a ready send is treated as a send (C53), every number of processes, field, rule and run length: conservation, placement, no panic, synchronous views and completion, provided agents move at most into a neighbouring block. Refuted: an agent that moves further is lost, and a process without agents does not advance its clock, so times differ. What a halo contains is C76.
* C127: `C127_exit_refuted`. Proved for all interleavings: the grids, the field, the calls of simulate! and agreement with the sequential grids and field for agents that do not depend on the order in which they see others. Refuted: when everybody has stopped the parallel build exits the process and the remaining repetitions do not happen.
* C128: `C128_agents_refuted`. For every history of calls: exactly which agents the counters of Field2D and Kdtree count. They are the number of agents in the field until the first lazy_update has been made; from then on they are frozen, so the documented meaning is refuted for running simulations.
* C129: `C129_sequential_refuted`, `C129_parallel_refuted`, `C129_alone_refuted`. False: what before_step and after_step return is dropped (schedule.rs L186-190, L397-399). Refuted in general: programs that differ only in the returned agents behave the same, in both builds.
* C130: `C130_lost_refuted`, `C130_lost_parallel_refuted`. Everything but the last clause is proved for both builds, with exactly which agents stay scheduled after the panic; the due agents that have not had their turn are lost (refuted). Panics of the hooks of the state are C134; panic = abort is not modelled.
* C131: `C131_window_refuted`, `C131_narrow_refuted`, `C131_first_refuted`. Exact arithmetic (and f32 for the NaN). Proved for windows wider than the panel; refuted for the window's own size, narrower windows and the first drawing of sprites. Bevy's camera and default window are taken from its documentation.
* C132: `C132_zero_refuted`. The value of --nt is given: clap's reading of the command line is not modelled. Refuted for --nt 0.
* C135: `C135_agents_refuted`, `C135_stop_refuted`. The labels and pictures are proved for every history. Refuted: the entities shown are not the agents of the schedule, and a grid that is rendered outside on_init makes the first draw after a click on Stop panic.
* C136: `C136_next_column_refuted`. Arithmetic is that of a release build (32-bit wrap-around); a debug build panics where it would wrap. C136_next_column_refuted shows that no grid with two columns refuses every outside location.
* C138: `C138_modes_refuted`. The documented conditions are false of the code (C138_modes_refuted); C138_modes_partial states the exact ones. The typing of the arms is a simplified form of the rule of Rust.
