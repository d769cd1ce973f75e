# Formal model of tda-mapper-python: design

Source: `/repo` (lucasimi/tda-mapper-python), read as text only. Model and proofs:
`rocq/theories`, Coq 8.16.1, the standard library, and Flocq's binary64 numbers (no axioms of its own).

## Files

* `Model*` hold definitions only, each with a `/repo` file and line citation.
* `Spec*` hold specifications that do not use the model's helpers.
* `Prop*` hold the public theorems, an Example next to each that meets its hypotheses on concrete
  data, refutations with their witnesses, and `Print Assumptions` after every theorem.
* The remaining files hold lemmas.
* `MANIFEST.json` maps properties to theorems. `seeded/LOG.jsonl` logs the wrong programs tried
  against the theorems.

## Conventions

* Python functions become total Gallina functions. Exceptions are values: `res A := Ok a | Err e`
  with `e` one of the Python exception classes that the code can raise.
* `while` loops take fuel and return `Err OutOfFuel` when it runs out. A theorem excludes that
  result for the fuel the model uses, so fuel is not an assumption of any public theorem.
* numpy arrays and Python lists are Coq lists with checked reads and writes (`IndexError`).
* Random numbers are an oracle argument. Theorems quantify over every oracle.
* User callables (metric, clustering, filter, aggregation, layout, colormap) are arbitrary functions.
* Dictionaries are association lists in insertion order (`Dict.v`), as in Python 3.7 and later.
* Search trees are written over an abstract type of distances with the operations the code applies.
  Theorems are stated for exact reals (C18 to C22), for any rounding (C23), and C23 includes an
  instance for IEEE binary64.
* Numeric code is written once over a record of operations `arith` and read over real numbers `RA`
  (theorems), rationals `QA` (examples), IEEE binary64 `BA` (Flocq, C52 to C54) and `FA` (Coq's
  `SpecFloat`, C47), and extended reals with not-a-number `XA` (data frames and plots).
* Estimators live on a heap of objects with attributes in insertion order (`ModelObjects`). Code that
  reads and writes them is a sequence of atomic steps (`prog` in `ModelLearn`), so that threads can be
  interleaved at every attribute access (`ModelParallel`).
* A plotly figure is a dictionary from property paths to values (`ModelPlotly`).
* The application is a state machine: events of the page start handlers, whose parts between
  suspension points interleave (`ModelApp`).

## Plan per property

| id | model | proof |
|----|-------|-------|
| C01, C02 | `mapper_labels` over open sets and a clustering oracle | loop invariant on the offset; refutation witness for the docstring |
| C03, C04 | `mapper_graph` over an insertion-ordered graph | invariant on the node and edge tables |
| C05 | `mapper_connected_components` with the union-find model | refinement to reachability in the graph of C04 |
| C06 | `aggregate_graph` | induction on nodes |
| C07 | `proximity_net` | invariant on the covered set |
| C08 | `TrivialCover`, `TrivialClustering` | direct, all sizes |
| C09 | `FailSafeClustering.fit` | case analysis, arbitrary delegate |
| C10 | small-step interleaving of jobs over a heap of clustering objects | schedule independence by invariant; refutation for a shared delegate |
| C11, C12 | `UnionFind` with parent and size tables | invariant: forest, sizes, rank bound |
| C13 | constructor that iterates its argument twice | refutation witness, positive theorem for re-iterable arguments |
| C14, C15 | `MaxHeap` array heap and iterator cursor | heap invariant, multiset refinement; refutation for nested loops |
| C16, C17 | `_partition`, `_quickselect` | permutation-with-satellites invariant, termination measure |
| C18, C20 | flat tree builder and searches | array invariant by strong induction on ranges; loop lemma |
| C19, C21 | hierarchical tree builder and searches | induction on the tree |
| C22 | both trees | corollary of exactness |
| C23 | both trees, any rounding with bounded error | same induction with a missed set; binary64 instance |
| C24 | both trees on no data | refutation for flat, theorem for hierarchical |
| C25, C26, C27 | `BallCover`, `KNNCover` on top of the trees | corollaries; refutation for duplicates |
| C28, C29, C30 | cubical covers over exact reals | floor arithmetic; refutation for the docstring |
| C31 | default overlap over `R` | real identity |
| C32, C33, C34 | metrics over `R` | Cauchy-Schwarz and Minkowski inequalities |
| C35 | `get_metric` | case analysis |
| C36, C37 | object heap with attributes | case analysis, frame lemmas |
| C38 | validation on a description of arrays | case analysis |
| C39, C40 | `learn.py` on the object heap | composition of the above |
| C41, C42, C43, C48 | plot backends: the values they hand to the plotting library | alignment lemmas, replay of updates; refutations |
| C44, C45, C46, C49, C50, C51 | the application: data preparation, settings, runs, drawing, events | arithmetic on means; traces; positive theorems under restrictions |
| C47 | `cosine` in binary64 | refutations by computation; error bounds over Flocq's binary64 (`FloatCosine.v`): norms, a sum of products of any sign (Cauchy-Schwarz), quotient, root |
| C52 | covers and metrics in binary64 (`ModelFloat`) | the run in doubles equals a run over rounded reals (`Relate`); covers without the triangle inequality; error analysis of the metrics |
| C53 | cubical covers in binary64 | error analysis of the grid positions, cell middles and radius |
| C54 | composition of lens, cover, clustering and graph | corollary of C01 to C05, C52, C53 |
| C55 | two runs of a cover with different trees | exactness of search (C21, C25); invariance of clusters and graph under reordering; refutations |
| C56 | recursive functions with a bound on nested calls | induction on the bound; sizes halve at each level (C19) |
| C57 | expressions written by `__repr__`, and their evaluation on a heap; depth of brackets, one item of a list of arguments | induction on the recursion depth; texts are stable under allocation; the first item of a list ends at the first comma outside of brackets |
| C58 | moved, scaled and rescaled datasets | relational parametricity of the trees and covers; scaling of norms; grid positions do not change |
| C59 | reordered datasets | matching of clusters through the permutation; C30 characterises the sets |
| C60 | the notifications of a page and of its pending computations | invariant over all events; every drawing the page starts has a row for each point |
| C61 | the calls of the metric made by builds, queries and covers | the trees once more with the calls in a log; sum over the ranges still to visit |
| C62 | the same with a metric that may raise | simulation of the total metric up to the first exception |
| C63 | reading of numerals as reals; p significant digits; nearest | Flocq's rounding in radix 10; digits of integers, reading back what was laid out |
| C64 | values present, their exact average, an error bound | signed sums over any summation plan, rounding of the division |
| C65 | the sets with a point; different cells; cells less than K apart | counting integer points in boxes; C29's description of the cubes, and C53's in double precision, where equal computed cells give equal searches |
| C66 | the page of a plot; position on a colour bar | cases on where the call stops |
| C67 | sharing a cluster; walks along data points | induction on chains; soundness of ball searches without any assumption on the metric |
| C68 | distances comparable with the differences in the columns; entries of the adjacency lists | counting grid cells that hold a center, also if centers and members are known up to rounding only (C52); induction on the net loop for C07's uniqueness |
| C69 | refinement of clusterings and covers; maps of graphs; the nerve | C01-C05's description of nodes and edges by clusters; label offsets are positions for TrivialClustering; the order of cells does not depend on the overlap |
| C70 | sets that grow; nodes and edges that are kept, with shifted numbers; copies of rows | nets are determined by first come (C07), so by induction on the row numbers old centers stay centers; cells ordered by first row: new cells first |
| C71 | texts of integers (white space, sign, groups of digits); the events of one client | the scanner is related to the grammar in both directions; induction on histories; C46 for the page of one client |
| C72 | graphs as node and edge sets; the graph and plot of inputs on their own; tables as values of named columns | invariant of the caches over all sequences of runs: entries are the values of their keys for some earlier input; sorted lists of nodes and ordered pairs determine the structure of a graph |
| C73 | occurrences; the order of numbers with missing values last; numbers below and above a value; mean squared deviation | sorting by insertion is unique for a total order; runs of a sorted list; piecewise linear functions through sorted numbers; deviation about the middle of the range, and about the reflection of the median in the mean |
| C74 | values with plain keys; representatives of the components | texts are read back uniquely before anything that does not continue a number, by induction on values; two systems of representatives have the same size; C05 |
| C75 | what can be chosen; the objects that are meant, with all parameters | all objects of the heap are constructed ones with settings or earlier objects, so C57 applies to each nested text; the cover's fit of C31 |
| C76 | margins around the radius, between neighbours or around the grid; the run over doubles and the run over reals (`SpecFaithful`) | C52 and C53 decide membership outside the margin; greedy nets with the same answers are the same; C55 for the graph |

Some properties in `properties.jsonl` were reworded after the model showed the first wording to be
false or imprecise (C10, C13, C15, C24, C38, C41 to C46). The false part is kept as a theorem whose
name ends in `_refuted`.

## What is modelled

| code | model | left out of it |
|------|-------|----------------|
| `core.py` | `ModelCore`, `ModelLearn`, `ModelParallel` | logging, `verbose`, joblib's choice of workers (any schedule is allowed) |
| `cover.py` | `ModelCover` | scikit-learn parameter plumbing, which is C36 |
| `learn.py` | `ModelLearn` | nothing |
| `_common.py` | `ModelObjects`, `ModelRepr`, `ModelValidate`, `ModelWarn` | `profile`, `deprecated` |
| `utils/unionfind.py`, `utils/heap.py`, `utils/quickselect.py` | `ModelUnionFind`, `ModelHeap`, `ModelQuickselect` | numba compilation |
| `utils/vptree.py`, `utils/vptree_flat/`, `utils/vptree_hier/` | `ModelVPTree`, `ModelDepth`, `ModelCalls` | the calls made before an exception |
| `utils/metrics.py`, `utils/_metrics.py` | `ModelMetrics`, `ModelFastmath`, `ModelFastCosine` | numba compilation, vectors of different lengths |
| `plot.py` | `ModelDraw` (layout) | methods that only forward their arguments to a backend |
| `plot_backends/plot_matplotlib.py`, `plot_pyvis.py` | `ModelDraw`, `ModelFmt`, `ModelNanmean` (default `agg`), `ModelPyvisFile` | contents of the html, styling |
| `plot_backends/plot_plotly.py` | `ModelPlotly`, `ModelFmt`, `ModelNanmean` | axis styling, placement of controls, formatting of numbers in slider labels |
| `app.py`, `_run_app.py` | `ModelApp`, `ModelNotify`, `ModelEntry` | page appearance, logging, CSV parsing |
| `app/streamlit_app.py`, lines 33-41, 172-225, 246-257, 283-306, 331-787, 837-858, 889-890, 915-919, 929-957 | `ModelOldApp`, `ModelAgg`, `ModelJson`, `ModelOldControls` | histograms of the columns, compression, appearance; hashes of keys are taken to tell them apart; widgets are the values they return |

The project's unit tests with fixed data and known results are run on the model in double precision
(`RepoTests.v`, 26 tests; slow ones on smaller datasets): covers of four point sets and their numbers of
sets and components, the graphs of `test_unit_core.py`, tree searches against brute force, heaps,
quickselect, union-find, metrics and plots. All give the results the tests expect.

Simplifications that matter to a reader of the theorems are stated in the comment of the definition.
The main ones:

* Point ids are naturals. Every cover of the library yields such ids.
* Real arithmetic is exact except in C23, C47, C52 to C54 and where extended reals are used. Rounding
  of `minkowski` and in the plot sizes is not modelled. The power in the default `overlap_frac` is any
  function with relative error at most 2^-52 on [1/2, 1] x [0, 1] (`accurate_pow`, an assumption on libm).
* In double precision, sums run from left to right. numba's `fastmath` may reorder and fuse them:
  `C52_any_order_*` covers every order and grouping (`ModelFastmath`). BLAS norms may rescale, too:
  `C52_any_distance` covers any way of evaluation.
* numba's unchecked array accesses are modelled as checked ones. The theorems show that none is out
  of range.
* One atomic step of a thread is one attribute read, attribute write, allocation or `clone`.

Not modelled at all: rendering in plotly, matplotlib and pyvis, networkx layout algorithms, pandas
input, NiceGUI, scikit-learn and UMAP estimators (arbitrary functions here), joblib's process
management, numba, memory limits, the decorators `deprecated` and `profile` of `_common.py` (unused), `protocols.py` (types only), of `app/streamlit_app.py` (the former app, of which only a notice is still shown) all but what the table lists.

## Trusted base

* Coq 8.16.1's kernel, including `vm_compute`, which concrete examples use.
* That the definitions in `Model*` say what the code in `/repo` does. This is checked by reading only.
* That the statements in `Prop*` with `Spec*` say what `properties.jsonl` says.
* For each theorem, the axioms below. All come from Coq's standard library of real numbers:
  * A: `ClassicalDedekindReals.sig_forall_dec`
  * B: `ClassicalDedekindReals.sig_not_dec`
  * C: `Classical_Prop.classic`
  * D: `FunctionalExtensionality.functional_extensionality_dep`

No axiom is added, no kernel check is switched off, no proof is left open.

Axioms by theorem, as `Print Assumptions` reports them:

* **none (closed under the global context)** (241 theorems): C01_labels_are_clusters, C01_labels_fail, C01_labels_total, C02_cross_point_order_refuted, C02_labels_ascending, C02_repeated_ids_refuted, C03_graph_fails_as_labels, C03_nodes_are_clusters, C04_edges_share_points, C04_edges_symmetric, C04_same_set_disjoint, C05_components_match_graph, C06_aggregate_graph, C06_aggregate_total, C07_net_covers, C07_net_first_come, C07_net_is_greedy, C07_net_stops, C07_net_unique, C08_trivial_cover, C08_trivial_graph, C08_trivial_graph_empty, C09_failsafe, C10_algorithm_without_failsafe, C10_every_schedule, C10_failsafe_refuted, C10_mapper_labels, C10_no_infinite_run, C10_not_stuck, C10_one_job, C10_who_shares, C11_find_preserves_answers, C11_union_find_equivalence, C11_union_returns_representative, C12_find_logarithmic, C12_unknown_key_error, C13_any_iterable_refuted, C13_one_shot_iterator_breaks_union, C14_heap_drain_sorted, C14_heap_is_priority_queue, C15_nested_iteration, C15_nested_iteration_refuted, C15_single_iteration, C16_partition, C17_quickselect, C17_quickselect_outside, C17_quickselect_rank, C17_quickselect_terminates, C18_flat_ball_search_any, C18_flat_ball_search_no_metric, C18_leaf_capacity_zero_refuted, C19_hier_ball_search_any, C19_leaf_capacity_zero_refuted, C20_flat_knn_search_any, C21_hier_knn_search_any, C22_unknown_kind, C23_exact_without_triangle_refuted, C24_flat_empty_raises, C24_hier_empty, C25_empty_dataset, C25_search_is_open_ball_any, C26_apply_is_cover_and_net_any, C27_apply_any, C27_apply_covers_duplicates_refuted, C27_search_is_nearest_any, C29_empty_dataset, C29_unknown_algorithm, C35_callable, C35_keywords, C35_names, C35_unknown, C36_get_params, C36_ignored, C36_nested_into_non_object, C36_only_parameters_refuted, C36_order_irrelevant, C36_order_shared_object_refuted, C36_order_two_levels_refuted, C36_set_params_effect, C36_set_then_get, C37_clone, C37_clone_unfitted, C37_independent_refuted, C37_nested_shared, C37_required_arguments, C38_accepted_have_rows_refuted, C38_accepts_exactly, C38_fit_invalid, C38_longer_lens, C38_numeric, C38_object_errors, C38_only_value_errors_refuted, C38_other_types, C38_rows, C38_shape_errors, C38_shorter_lens, C39_fit_stores_graph, C39_fit_transform, C39_fresh_clone, C39_parameters_kept, C39_refit, C39_stale_graph_refuted, C40_fit_stores_components, C40_labels_are_components, C40_refit, C41_default_node_size_fails, C41_default_scale, C41_look, C41_mapper_graphs_drawable, C41_matplotlib, C41_nan_color_refuted, C41_plotly_color_range, C41_plotly_edges, C41_plotly_markers, C41_plotly_total, C41_positions, C41_positions_total, C41_pyvis_nodes_edges, C41_titles_fit, C41_unknown_engine, C42_colors_alone_ignored, C42_other_menus_refuted, C42_stale_color_menu_refuted, C42_title_alone_fails, C42_title_refuted, C42_update_all_is_plot, C42_update_keeps_the_rest, C42_update_takes_effect, C44_infinities_refuted, C44_kept_columns, C45_cleared_dimensions, C45_scaling_ignored, C46_current_data, C46_one_run, C46_race_refuted, C46_stale_refuted, C47_cosine_cover_refuted, C47_cosine_self_zero_refuted, C48_cmap_menu, C48_color_menu, C48_dark_mode, C48_first_scale_refuted, C48_size_slider, C49_nothing, C49_pipeline, C49_selection_only, C50_color_menu, C50_drawn, C50_layout, C50_page, C51_csv_changes_nothing, C51_csv_refuted, C51_latest_data, C51_latest_unique, C54_lost_iff_noise, C54_no_point_lost, C54_noise_refuted, C55_knn_ties_refuted, C55_order_dependent_refuted, C55_order_of_points, C56_limit_reached, C56_limit_too_low, C56_recursion_depth, C57_clone_text, C57_evaluates, C57_extra_attribute, C57_private, C57_tells, C57_tells_refuted, C57_text, C57_total, C57_unambiguous, C58_order_zero_refuted, C58_point_order_refuted, C58_same_distances, C58_tolerance_refuted, C59_proximity_refuted, C59_row_order, C59_trivial_clustering, C60_all_stop, C60_cleared_refuted, C60_draw_reported, C60_forever, C60_misreported_refuted, C60_no_spinner_left, C60_page, C60_run_reported, C60_spinners, C61_build_calls, C61_cover_calls_any, C61_query_calls, C62_mapper, C62_same, C66_old_page_kept_refuted, C66_only_that_file, C66_raised, C66_returns, C66_written, C67_ball_gaps, C67_ball_walk, C67_close_points_joined_refuted, C67_clustering_labels, C67_components_are_chains, C67_larger_radius_joins_more_refuted, C67_trivial_cover, C69_finer_clustering, C69_finer_components, C69_into_nerve, C69_nerve, C69_proximity_more_overlap_refuted, C69_refined, C69_refined_components, C70_bounds_refuted, C70_neighbours_refuted, C71_client_sees_own_data, C71_clients, C71_empty_port_refuted, C71_numeral_unique, C71_port, C71_settings, C72_data, C72_download, C72_download_refuted, C72_faithful, C72_figure, C72_lens, C72_limits, C72_page, C72_stale_colors_refuted, C72_stale_raises_refuted, C72_switch, C72_switch_refuted, C72_too_large, C74_download, C74_stats, C74_texts_differ, C75_made, C75_one_choice, C75_other_controls, C75_session, C75_texts_tell.
* **A, D** (50 theorems): C18_flat_ball_search, C19_hier_ball_search, C20_flat_knn_search, C21_hier_knn_search, C22_parameters_irrelevant, C23_ball_search_slack, C23_knn_search_slack, C23_rounded_exact, C25_search_is_open_ball, C26_apply_is_cover_and_net, C26_radius_not_positive, C27_apply_covers, C27_search_is_nearest, C31_adjacent_intervals, C31_core_is_a_box, C31_default_bound, C31_default_core_volume, C44_complete, C44_filled, C44_fix_data, C45_defaults, C45_settings, C45_settings_refuted, C45_unreadable, C55_ball_cover, C55_knn_cover, C56_default_limit, C58_unit_of_length, C61_ball_cover_calls, C61_knn_cover_calls, C62_ball_cover, C62_knn_cover, C62_tree, C68_any_metric_refuted, C68_degree, C68_labels, C68_neighbours_refuted, C68_overlaps, C68_size, C70_ball_copies, C70_ball_copies_graph, C70_ball_graph, C70_ball_sets, C73_mean, C73_mode, C73_mode_missing_refuted, C73_names_refuted, C73_quantile, C73_quantile_moves, C73_quantile_ranks.
* **A, B, D** (9 theorems): C41_pyvis_colors, C43_equal_sizes_ignore_node_size, C43_node_size_and_tooltip_refuted, C43_size_monotone, C43_size_nearest, C66_bar_explains_colors, C73_chosen, C73_names, C73_std.
* **A, B, C, D** (125 theorems): C23_binary64_is_rounding, C28_cubical_cover_search, C28_one_cell, C28_search_is_hypercube, C29_cubical_covers, C29_overlap_above_one_covers_nothing, C29_proximity_net, C30_all_intersecting_hypercubes_refuted, C30_standard_cells, C31_default_computed, C31_default_exists, C31_half_of_hypercube_refuted, C31_overlap_not_positive, C31_overlap_one, C32_ball_cover_named, C32_chebyshev_metric, C32_documented, C32_euclidean_metric, C32_manhattan_metric, C33_minkowski_metric, C33_negative_order_triangle_refuted, C33_order_zero, C33_small_order_triangle_refuted, C33_special_orders, C34_cosine_pseudo_metric, C34_cosine_range, C34_cosine_separates_refuted, C34_cosine_unit_metric, C34_cosine_zero_vector, C41_plotly_sizes, C47_accuracy, C47_ball_sound, C47_distinct_refuted, C47_fast_accuracy, C47_fast_ball_sound, C47_self, C47_symmetric, C50_sizes, C52_any_distance, C52_any_order_accuracy, C52_any_order_ball, C52_any_order_knn, C52_ball_cover, C52_ball_search, C52_exact_search_refuted, C52_knn_accuracy, C52_knn_any_distance, C52_knn_cover, C52_knn_exact_refuted, C52_named_accuracy, C52_overflow_refuted, C53_cubical_cover, C53_default_overlap, C53_far_from_origin_refuted, C53_tiny_overlap_refuted, C54_ball_cover, C54_cubical_cover, C54_cubical_default, C55_cubical_cover, C58_columns, C58_directions, C58_similarity, C58_translation, C59_standard_cover, C59_standard_mapper, C63_decimals, C63_integers, C63_large_sizes_refuted, C63_length, C63_monotone, C63_nearest, C63_plotly_tooltips, C63_pyvis_titles, C63_same_text, C63_shape, C63_ties, C64_between, C64_constant, C64_constant_refuted, C64_infinite_refuted, C64_integers, C64_matplotlib, C64_mean, C64_nan, C64_order_refuted, C64_overflow_refuted, C64_plotly, C64_plotly_range, C64_pyvis, C65_above_half_refuted, C65_at_most_half, C65_default, C65_default_silent, C65_degree, C65_different_cells, C65_double, C65_double_half, C65_double_refuted, C65_edges, C65_labels, C65_lines, C65_overlaps, C65_warning, C67_cubical_walk, C68_chebyshev, C68_cubical_size, C68_double, C68_double_refuted, C68_euclidean, C68_manhattan, C68_minkowski, C68_named, C69_more_overlap, C69_more_overlap_sets, C70_cubical_graph, C70_proximity_sets, C70_standard_sets, C72_sizes, C75_default_overlap, C75_overlap_range, C75_range_refuted, C76_ball, C76_close_refuted, C76_cubical, C76_knn.
