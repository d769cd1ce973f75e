{
 "claims": [
  {
   "property": "C01",
   "status": "proved",
   "theorems": [
    "C01_labels_are_clusters",
    "C01_labels_total",
    "C01_labels_fail"
   ],
   "note": "ids are naturals; the clustering is an arbitrary function of call number and data that may raise; also exact failure behaviour"
  },
  {
   "property": "C02",
   "status": "proved",
   "theorems": [
    "C02_labels_ascending",
    "C02_cross_point_order_refuted",
    "C02_repeated_ids_refuted"
   ],
   "note": "ascending under 'no set repeats a point'; documented cross-point order refuted; proviso shown necessary"
  },
  {
   "property": "C03",
   "status": "proved",
   "theorems": [
    "C03_nodes_are_clusters",
    "C03_graph_fails_as_labels"
   ],
   "note": "networkx graph modelled as node and adjacency dictionaries"
  },
  {
   "property": "C04",
   "status": "proved",
   "theorems": [
    "C04_edges_share_points",
    "C04_edges_symmetric",
    "C04_same_set_disjoint"
   ],
   "note": ""
  },
  {
   "property": "C05",
   "status": "proved",
   "theorems": [
    "C05_components_match_graph"
   ],
   "note": ""
  },
  {
   "property": "C06",
   "status": "proved",
   "theorems": [
    "C06_aggregate_graph",
    "C06_aggregate_total"
   ],
   "note": "iff for success; total on Mapper graphs of the same data when agg is total"
  },
  {
   "property": "C07",
   "status": "proved",
   "theorems": [
    "C07_net_is_greedy",
    "C07_net_covers",
    "C07_net_stops",
    "C07_net_first_come",
    "C07_net_unique"
   ],
   "note": "search and fit are arbitrary functions that may raise; C07_net_first_come and C07_net_unique determine the sets"
  },
  {
   "property": "C08",
   "status": "proved",
   "theorems": [
    "C08_trivial_cover",
    "C08_trivial_graph",
    "C08_trivial_graph_empty"
   ],
   "note": ""
  },
  {
   "property": "C09",
   "status": "proved",
   "theorems": [
    "C09_failsafe"
   ],
   "note": "logging not modelled; sharing of the wrapped object is treated in C10/C37"
  },
  {
   "property": "C10",
   "status": "proved",
   "theorems": [
    "C10_every_schedule",
    "C10_no_infinite_run",
    "C10_not_stuck",
    "C10_mapper_labels",
    "C10_one_job",
    "C10_algorithm_without_failsafe",
    "C10_who_shares",
    "C10_failsafe_refuted"
   ],
   "note": "threads interleave at single attribute reads and writes, allocations and clone calls, any number at a time; fit of a third-party clustering is: read the parameters, compute, write labels_; a nested MapperClustering runs its own jobs one by one; after an exception the remaining jobs may go on or not"
  },
  {
   "property": "C11",
   "status": "proved",
   "theorems": [
    "C11_union_find_equivalence",
    "C11_find_preserves_answers",
    "C11_union_returns_representative"
   ],
   "note": "every history of find/union on known elements"
  },
  {
   "property": "C12",
   "status": "proved",
   "theorems": [
    "C12_find_logarithmic",
    "C12_unknown_key_error"
   ],
   "note": "links followed by find <= log2(number of distinct elements); KeyError on unknown elements"
  },
  {
   "property": "C13",
   "status": "proved",
   "theorems": [
    "C13_one_shot_iterator_breaks_union",
    "C13_any_iterable_refuted"
   ],
   "note": "positive part: C11 theorems with the list as collection; one-shot iterators refuted for every history"
  },
  {
   "property": "C14",
   "status": "proved",
   "theorems": [
    "C14_heap_is_priority_queue",
    "C14_heap_drain_sorted"
   ],
   "note": "every add/pop history refines an abstract priority queue; draining is sorted"
  },
  {
   "property": "C15",
   "status": "proved",
   "theorems": [
    "C15_single_iteration",
    "C15_nested_iteration",
    "C15_nested_iteration_refuted"
   ],
   "note": "both parts, for every heap"
  },
  {
   "property": "C16",
   "status": "proved",
   "theorems": [
    "C16_partition"
   ],
   "note": "any boolean comparison"
  },
  {
   "property": "C17",
   "status": "proved",
   "theorems": [
    "C17_quickselect",
    "C17_quickselect_rank",
    "C17_quickselect_outside",
    "C17_quickselect_terminates"
   ],
   "note": "sufficient fuel is part of the statement (result is Ok)"
  },
  {
   "property": "C18",
   "status": "proved",
   "theorems": [
    "C18_flat_ball_search",
    "C18_flat_ball_search_any",
    "C18_flat_ball_search_no_metric",
    "C18_leaf_capacity_zero_refuted"
   ],
   "note": "any pseudo-metric into R; generic version over any total preorder; counterexample for leaf_capacity=0 shows the proviso is needed"
  },
  {
   "property": "C19",
   "status": "proved",
   "theorems": [
    "C19_hier_ball_search",
    "C19_hier_ball_search_any",
    "C19_leaf_capacity_zero_refuted"
   ],
   "note": "as C18, symmetric distance used"
  },
  {
   "property": "C20",
   "status": "proved",
   "theorems": [
    "C20_flat_knn_search",
    "C20_flat_knn_search_any"
   ],
   "note": "k is a natural number (negative k not modelled)"
  },
  {
   "property": "C21",
   "status": "proved",
   "theorems": [
    "C21_hier_knn_search",
    "C21_hier_knn_search_any"
   ],
   "note": "k is a natural number (negative k not modelled)"
  },
  {
   "property": "C22",
   "status": "proved",
   "theorems": [
    "C22_parameters_irrelevant",
    "C22_unknown_kind"
   ],
   "note": "unknown kind raises ValueError"
  },
  {
   "property": "C23",
   "status": "proved",
   "theorems": [
    "C23_rounded_exact",
    "C23_ball_search_slack",
    "C23_knn_search_slack",
    "C23_binary64_is_rounding",
    "C23_exact_without_triangle_refuted"
   ],
   "note": "any monotone odd rounding, instantiated with IEEE binary64; without the triangle inequality exactness is refuted"
  },
  {
   "property": "C24",
   "status": "proved",
   "theorems": [
    "C24_hier_empty",
    "C24_flat_empty_raises"
   ],
   "note": "both parts"
  },
  {
   "property": "C25",
   "status": "proved",
   "theorems": [
    "C25_search_is_open_ball",
    "C25_search_is_open_ball_any",
    "C25_empty_dataset"
   ],
   "note": "distances are reals of any pseudo-metric, or any ordered type where pruning is safe; behaviour on the empty dataset included"
  },
  {
   "property": "C26",
   "status": "proved",
   "theorems": [
    "C26_apply_is_cover_and_net",
    "C26_apply_is_cover_and_net_any",
    "C26_radius_not_positive"
   ],
   "note": "radius <= 0 is shown to cover nothing"
  },
  {
   "property": "C27",
   "status": "proved",
   "theorems": [
    "C27_search_is_nearest",
    "C27_search_is_nearest_any",
    "C27_apply_covers",
    "C27_apply_any",
    "C27_apply_covers_duplicates_refuted"
   ],
   "note": "coverage under the stated proviso; without it refuted; k >= 1 a natural number"
  },
  {
   "property": "C28",
   "status": "proved",
   "theorems": [
    "C28_search_is_hypercube",
    "C28_one_cell",
    "C28_cubical_cover_search"
   ],
   "note": "exact real arithmetic instead of floats; np.clip/floor/isclose-free code modelled line by line"
  },
  {
   "property": "C29",
   "status": "proved",
   "theorems": [
    "C29_cubical_covers",
    "C29_proximity_net",
    "C29_overlap_above_one_covers_nothing",
    "C29_empty_dataset",
    "C29_unknown_algorithm"
   ],
   "note": "exact real arithmetic instead of floats"
  },
  {
   "property": "C30",
   "status": "proved",
   "theorems": [
    "C30_standard_cells",
    "C30_all_intersecting_hypercubes_refuted"
   ],
   "note": "the documented 'all the hypercubes' is refuted with a witness"
  },
  {
   "property": "C31",
   "status": "proved",
   "theorems": [
    "C31_overlap_not_positive",
    "C31_overlap_one",
    "C31_default_computed",
    "C31_default_exists",
    "C31_core_is_a_box",
    "C31_default_core_volume",
    "C31_half_of_hypercube_refuted",
    "C31_adjacent_intervals",
    "C31_default_bound"
   ],
   "note": "exact real arithmetic; overlap_frac = 1 raises ZeroDivisionError; docstring read for whole hypercubes refuted"
  },
  {
   "property": "C32",
   "status": "proved",
   "theorems": [
    "C32_euclidean_metric",
    "C32_manhattan_metric",
    "C32_chebyshev_metric",
    "C32_documented",
    "C32_ball_cover_named"
   ],
   "note": "exact reals; numba's norm modelled per order"
  },
  {
   "property": "C33",
   "status": "proved",
   "theorems": [
    "C33_minkowski_metric",
    "C33_special_orders",
    "C33_small_order_triangle_refuted",
    "C33_negative_order_triangle_refuted",
    "C33_order_zero"
   ],
   "note": "exact reals; orders < 1 refuted; NaN order not modelled"
  },
  {
   "property": "C34",
   "status": "proved",
   "theorems": [
    "C34_cosine_pseudo_metric",
    "C34_cosine_unit_metric",
    "C34_cosine_zero_vector",
    "C34_cosine_range",
    "C34_cosine_separates_refuted"
   ],
   "note": "exact reals; see C47 for doubles"
  },
  {
   "property": "C35",
   "status": "proved",
   "theorems": [
    "C35_callable",
    "C35_names",
    "C35_unknown",
    "C35_keywords"
   ],
   "note": ""
  },
  {
   "property": "C36",
   "status": "proved",
   "theorems": [
    "C36_get_params",
    "C36_set_then_get",
    "C36_set_params_effect",
    "C36_order_irrelevant",
    "C36_ignored",
    "C36_nested_into_non_object",
    "C36_only_parameters_refuted",
    "C36_order_two_levels_refuted",
    "C36_order_shared_object_refuted"
   ],
   "note": "order independence for names of one nesting level reaching distinct objects; two levels, a shared object and method names are refuted with witnesses; scikit-learn's own get_params/set_params modelled beside ParamsMixin"
  },
  {
   "property": "C37",
   "status": "proved",
   "theorems": [
    "C37_clone",
    "C37_clone_unfitted",
    "C37_nested_shared",
    "C37_required_arguments",
    "C37_independent_refuted"
   ],
   "note": "acyclic object graphs with ordinary parameter names; sharing of nested objects is part of the statement"
  },
  {
   "property": "C38",
   "status": "proved",
   "theorems": [
    "C38_accepts_exactly",
    "C38_numeric",
    "C38_shape_errors",
    "C38_object_errors",
    "C38_other_types",
    "C38_rows",
    "C38_fit_invalid",
    "C38_shorter_lens",
    "C38_longer_lens",
    "C38_only_value_errors_refuted",
    "C38_accepted_have_rows_refuted"
   ],
   "note": "numpy's asarray is an input of the model: shape, entries and kind, or an exception; the scalar type with isnan/isinf and the conversion of objects are arbitrary"
  },
  {
   "property": "C39",
   "status": "proved",
   "theorems": [
    "C39_fit_stores_graph",
    "C39_fit_transform",
    "C39_refit",
    "C39_fresh_clone",
    "C39_parameters_kept",
    "C39_stale_graph_refuted"
   ],
   "note": "covers and clusterings other than the library's own estimators are arbitrary functions of their parameters; sequential run (see C10 for threads); acyclic object graphs, recursion limit above the nesting depth"
  },
  {
   "property": "C40",
   "status": "proved",
   "theorems": [
    "C40_fit_stores_components",
    "C40_labels_are_components",
    "C40_refit"
   ],
   "note": "as C39; the characterization of the labels is that of C05"
  },
  {
   "property": "C41",
   "status": "proved",
   "theorems": [
    "C41_default_scale",
    "C41_look",
    "C41_mapper_graphs_drawable",
    "C41_positions",
    "C41_positions_total",
    "C41_unknown_engine",
    "C41_plotly_markers",
    "C41_plotly_edges",
    "C41_plotly_sizes",
    "C41_plotly_color_range",
    "C41_plotly_total",
    "C41_titles_fit",
    "C41_matplotlib",
    "C41_nan_color_refuted",
    "C41_default_node_size_fails",
    "C41_pyvis_nodes_edges",
    "C41_pyvis_colors"
   ],
   "note": "layouts come from igraph/networkx and are arbitrary; arithmetic arbitrary except where stated (reals, extended reals, IEEE doubles); networkx layout: positions are whatever it returns; rendering by plotly.js, matplotlib and pyvis not modelled"
  },
  {
   "property": "C42",
   "status": "proved",
   "theorems": [
    "C42_update_keeps_the_rest",
    "C42_update_takes_effect",
    "C42_update_all_is_plot",
    "C42_title_alone_fails",
    "C42_colors_alone_ignored",
    "C42_title_refuted",
    "C42_stale_color_menu_refuted",
    "C42_other_menus_refuted"
   ],
   "note": "figures are trace attributes, layout attributes, menus and sliders; plotly's own validation of values not modelled"
  },
  {
   "property": "C43",
   "status": "proved",
   "theorems": [
    "C43_size_nearest",
    "C43_size_monotone",
    "C43_equal_sizes_ignore_node_size",
    "C43_node_size_and_tooltip_refuted"
   ],
   "note": "exact extended reals, math.sqrt exact, round to even"
  },
  {
   "property": "C44",
   "status": "proved",
   "theorems": [
    "C44_fix_data",
    "C44_filled",
    "C44_complete",
    "C44_kept_columns",
    "C44_infinities_refuted"
   ],
   "note": "pandas modelled: a column is numeric or not, missing is NaN, row labels 0, 1, 2, ...; averages in exact extended reals, columns in any arithmetic"
  },
  {
   "property": "C45",
   "status": "proved",
   "theorems": [
    "C45_settings",
    "C45_scaling_ignored",
    "C45_cleared_dimensions",
    "C45_settings_refuted",
    "C45_defaults",
    "C45_unreadable"
   ],
   "note": "values of the controls as extended reals; int() truncates"
  },
  {
   "property": "C46",
   "status": "proved",
   "theorems": [
    "C46_one_run",
    "C46_current_data",
    "C46_stale_refuted",
    "C46_race_refuted"
   ],
   "note": "events of one page interleave at the await points; computations may end in any order; the storage of one client"
  },
  {
   "property": "C47",
   "status": "proved",
   "theorems": [
    "C47_accuracy",
    "C47_self",
    "C47_symmetric",
    "C47_ball_sound",
    "C47_fast_accuracy",
    "C47_fast_ball_sound",
    "C47_distinct_refuted",
    "C47_cosine_self_zero_refuted",
    "C47_cosine_cover_refuted"
   ],
   "note": "the refutations are evaluated with the standard library's SpecFloat (IEEE 754 binary64, round to nearest even), the error bounds are proved over Flocq's binary64; C47_fast_accuracy and C47_fast_ball_sound allow any order and grouping of the sums and fused multiply-adds; the division and the root are computed as written"
  },
  {
   "property": "C48",
   "status": "proved",
   "theorems": [
    "C48_dark_mode",
    "C48_color_menu",
    "C48_size_slider",
    "C48_cmap_menu",
    "C48_first_scale_refuted"
   ],
   "note": "Plotly.restyle modelled after its documentation"
  },
  {
   "property": "C49",
   "status": "proved",
   "theorems": [
    "C49_nothing",
    "C49_pipeline",
    "C49_selection_only"
   ],
   "note": "PCA, UMAP, StandardScaler and MapperAlgorithm.fit_transform are arbitrary functions; for the shape of the lens frame, lenses keep rows and rectangularity"
  },
  {
   "property": "C50",
   "status": "proved",
   "theorems": [
    "C50_drawn",
    "C50_color_menu",
    "C50_page",
    "C50_layout",
    "C50_sizes"
   ],
   "note": "assumed of third parties: lenses and scaler keep rows, Mapper returns a Mapper graph (C39), the layout has a row per node, the five colorscales are known"
  },
  {
   "property": "C51",
   "status": "proved",
   "theorems": [
    "C51_latest_data",
    "C51_latest_unique",
    "C51_csv_changes_nothing",
    "C51_csv_refuted"
   ],
   "note": "reading the CSV is not modelled"
  },
  {
   "property": "C52",
   "status": "proved",
   "theorems": [
    "C52_named_accuracy",
    "C52_ball_search",
    "C52_ball_cover",
    "C52_knn_cover",
    "C52_any_distance",
    "C52_any_order_accuracy",
    "C52_any_order_ball",
    "C52_overflow_refuted",
    "C52_exact_search_refuted",
    "C52_knn_accuracy",
    "C52_any_order_knn",
    "C52_knn_any_distance",
    "C52_knn_exact_refuted"
   ],
   "note": "Neighbours and balls up to rounding. Flocq binary64, round to nearest even; sums from left to right, or in any order and grouping with fused multiply-add (numba's fastmath); norms that rescale (BLAS) are covered by the theorem on any distance"
  },
  {
   "property": "C53",
   "status": "proved",
   "theorems": [
    "C53_default_overlap",
    "C53_cubical_cover",
    "C53_far_from_origin_refuted",
    "C53_tiny_overlap_refuted"
   ],
   "note": "Flocq binary64; the power in the default overlap_frac is an arbitrary function with relative error at most 2^-52"
  },
  {
   "property": "C54",
   "status": "proved",
   "theorems": [
    "C54_cubical_default",
    "C54_lost_iff_noise",
    "C54_no_point_lost",
    "C54_ball_cover",
    "C54_cubical_cover",
    "C54_noise_refuted"
   ],
   "note": "the clustering is an arbitrary function that labels every point"
  },
  {
   "property": "C55",
   "status": "proved",
   "theorems": [
    "C55_order_of_points",
    "C55_ball_cover",
    "C55_knn_cover",
    "C55_cubical_cover",
    "C55_order_dependent_refuted",
    "C55_knn_ties_refuted"
   ],
   "note": "exact real distances; the clustering is an arbitrary function whose clusters do not depend on the order of the points"
  },
  {
   "property": "C56",
   "status": "proved",
   "theorems": [
    "C56_recursion_depth",
    "C56_default_limit",
    "C56_limit_reached",
    "C56_limit_too_low"
   ],
   "note": "counts nested calls of the recursive functions; leaf_capacity at least 1"
  },
  {
   "property": "C57",
   "status": "proved",
   "theorems": [
    "C57_text",
    "C57_total",
    "C57_clone_text",
    "C57_private",
    "C57_evaluates",
    "C57_extra_attribute",
    "C57_unambiguous",
    "C57_tells",
    "C57_tells_refuted"
   ],
   "note": "texts of values that are not ParamsMixin objects are arbitrary; for C57_unambiguous they must have matching brackets, no comma outside of them, and not look like the construction of an object of the library"
  },
  {
   "property": "C58",
   "status": "proved",
   "theorems": [
    "C58_same_distances",
    "C58_unit_of_length",
    "C58_translation",
    "C58_similarity",
    "C58_directions",
    "C58_columns",
    "C58_tolerance_refuted",
    "C58_point_order_refuted",
    "C58_order_zero_refuted"
   ],
   "note": "exact real numbers (the claim about equal distances holds in every arithmetic); refuted variants: columns near the tolerance, p=0, and the order of the points"
  },
  {
   "property": "C59",
   "status": "proved",
   "theorems": [
    "C59_row_order",
    "C59_standard_cover",
    "C59_standard_mapper",
    "C59_trivial_clustering",
    "C59_proximity_refuted"
   ],
   "note": "exact real lens values for the cubical cover; the claim on Mapper is for any cover and clustering meeting the stated hypotheses; refuted for the proximity cover"
  },
  {
   "property": "C60",
   "status": "proved",
   "theorems": [
    "C60_page",
    "C60_spinners",
    "C60_all_stop",
    "C60_forever",
    "C60_no_spinner_left",
    "C60_run_reported",
    "C60_draw_reported",
    "C60_cleared_refuted",
    "C60_misreported_refuted"
   ],
   "note": "third-party layouts, colour scales, lenses and scaler as in C50; the texts of exceptions are a parameter; controls that cannot be read leave a spinner for ever (refutations)"
  },
  {
   "property": "C61",
   "status": "proved",
   "theorems": [
    "C61_build_calls",
    "C61_query_calls",
    "C61_ball_cover_calls",
    "C61_knn_cover_calls",
    "C61_cover_calls_any"
   ],
   "note": "a second model of the trees with the calls made explicit, proved to follow the first; bounds are upper bounds; of a query that raises the calls are not counted; the calls of the clustering are third-party"
  },
  {
   "property": "C62",
   "status": "proved",
   "theorems": [
    "C62_tree",
    "C62_same",
    "C62_ball_cover",
    "C62_knn_cover",
    "C62_mapper"
   ],
   "note": "the answers are judged by a pseudo-metric on exact reals extending what the calls return; C62_same needs no hypothesis on distances; an exception ends the operation"
  },
  {
   "property": "C63",
   "status": "proved",
   "theorems": [
    "C63_nearest",
    "C63_monotone",
    "C63_decimals",
    "C63_same_text",
    "C63_ties",
    "C63_shape",
    "C63_length",
    "C63_integers",
    "C63_large_sizes_refuted",
    "C63_plotly_tooltips",
    "C63_pyvis_titles"
   ],
   "note": "double precision; Python's formatting of floats (CPython's float.__format__) is modelled from its documentation and was compared with Python on 1500 numbers; other number types are not modelled"
  },
  {
   "property": "C64",
   "status": "proved",
   "theorems": [
    "C64_nan",
    "C64_mean",
    "C64_between",
    "C64_integers",
    "C64_constant",
    "C64_plotly",
    "C64_plotly_range",
    "C64_matplotlib",
    "C64_pyvis",
    "C64_constant_refuted",
    "C64_order_refuted",
    "C64_overflow_refuted",
    "C64_infinite_refuted"
   ],
   "note": "double precision; np.nanmean is modelled from NumPy's source (replace NaN by 0, sum, divide by the number of other values) with the order of summation left open; lists of at most 2^20 values of size at most 2^1000"
  },
  {
   "property": "C65",
   "status": "proved",
   "theorems": [
    "C65_different_cells",
    "C65_overlaps",
    "C65_at_most_half",
    "C65_default",
    "C65_labels",
    "C65_edges",
    "C65_degree",
    "C65_lines",
    "C65_above_half_refuted",
    "C65_warning",
    "C65_default_silent",
    "C65_double",
    "C65_double_half",
    "C65_double_refuted"
   ],
   "note": "exact real arithmetic, and double precision for overlap_frac <= 1/2 (C65_double); numpy-array output of get_overlap_frac and the warnings module are modelled by their documented behaviour (filters show, drop or raise)"
  },
  {
   "property": "C66",
   "status": "proved",
   "theorems": [
    "C66_only_that_file",
    "C66_written",
    "C66_raised",
    "C66_returns",
    "C66_bar_explains_colors",
    "C66_old_page_kept_refuted"
   ],
   "note": "pyvis's and plotly's conversion to html are arbitrary functions that may raise; the fixed parts of the page are parameters; a file system maps paths to contents"
  },
  {
   "property": "C67",
   "status": "proved",
   "theorems": [
    "C67_components_are_chains",
    "C67_clustering_labels",
    "C67_ball_walk",
    "C67_ball_gaps",
    "C67_cubical_walk",
    "C67_trivial_cover",
    "C67_close_points_joined_refuted",
    "C67_larger_radius_joins_more_refuted"
   ],
   "note": "the ball cover is treated for any metric and comparison functions, hence also in double precision; the cubical covers in exact real arithmetic"
  },
  {
   "property": "C68",
   "status": "proved",
   "theorems": [
    "C68_chebyshev",
    "C68_euclidean",
    "C68_manhattan",
    "C68_minkowski",
    "C68_overlaps",
    "C68_labels",
    "C68_size",
    "C68_degree",
    "C68_named",
    "C68_cubical_size",
    "C68_any_metric_refuted",
    "C68_neighbours_refuted",
    "C68_double",
    "C68_double_refuted"
   ],
   "note": "exact real arithmetic, and double precision for the euclidean, manhattan and chebyshev distances (C68_double); edges are counted by the entries of the adjacency lists, two per edge"
  },
  {
   "property": "C69",
   "status": "proved",
   "theorems": [
    "C69_nerve",
    "C69_refined",
    "C69_refined_components",
    "C69_finer_clustering",
    "C69_finer_components",
    "C69_into_nerve",
    "C69_more_overlap_sets",
    "C69_more_overlap",
    "C69_proximity_more_overlap_refuted"
   ],
   "note": "the theorems on clusterings are for arbitrary covers, data and clusterings; those on overlap_frac are in exact real arithmetic"
  },
  {
   "property": "C70",
   "status": "proved",
   "theorems": [
    "C70_ball_sets",
    "C70_ball_graph",
    "C70_ball_copies",
    "C70_ball_copies_graph",
    "C70_proximity_sets",
    "C70_standard_sets",
    "C70_cubical_graph",
    "C70_neighbours_refuted",
    "C70_bounds_refuted"
   ],
   "note": "in exact real arithmetic; the graph statements are for TrivialClustering"
  },
  {
   "property": "C71",
   "status": "proved",
   "theorems": [
    "C71_port",
    "C71_numeral_unique",
    "C71_settings",
    "C71_empty_port_refuted",
    "C71_clients",
    "C71_client_sees_own_data"
   ],
   "note": "int() is modelled on ASCII texts with CPython's default limit of digits; NiceGUI is taken to give every client its own storage"
  },
  {
   "property": "C72",
   "status": "proved",
   "theorems": [
    "C72_faithful",
    "C72_page",
    "C72_limits",
    "C72_too_large",
    "C72_download",
    "C72_switch",
    "C72_switch_refuted",
    "C72_stale_colors_refuted",
    "C72_stale_raises_refuted",
    "C72_download_refuted",
    "C72_data",
    "C72_lens",
    "C72_figure",
    "C72_sizes"
   ],
   "note": "the former app is no longer run at the pinned commit (the file only shows a notice); keys are compared by value where Streamlit compares hashes (of a sample, for large arrays); the histograms of the columns are not modelled; that texts tell algorithms apart is C75"
  },
  {
   "property": "C73",
   "status": "proved",
   "theorems": [
    "C73_mode",
    "C73_mode_missing_refuted",
    "C73_quantile",
    "C73_quantile_ranks",
    "C73_quantile_moves",
    "C73_std",
    "C73_names",
    "C73_names_refuted",
    "C73_mean",
    "C73_chosen"
   ],
   "note": "np.unique, np.argmax, np.nanquantile, np.nanmean and np.nanstd are modelled without rounding"
  },
  {
   "property": "C74",
   "status": "proved",
   "theorems": [
    "C74_texts_differ",
    "C74_download",
    "C74_stats"
   ],
   "note": "networkx's adjacency_data and json.dumps are modelled; number_connected_components is taken to count correctly; compression is not modelled"
  },
  {
   "property": "C75",
   "status": "proved",
   "theorems": [
    "C75_made",
    "C75_one_choice",
    "C75_other_controls",
    "C75_texts_tell",
    "C75_session",
    "C75_overlap_range",
    "C75_default_overlap",
    "C75_range_refuted"
   ],
   "note": "the texts of numbers, names and scikit-learn's algorithms are arbitrary functions that tell them apart; widgets are the values they return; C75_overlap_range is in exact real arithmetic"
  },
  {
   "property": "C76",
   "status": "proved",
   "theorems": [
    "C76_ball",
    "C76_knn",
    "C76_cubical",
    "C76_close_refuted"
   ],
   "note": "Flocq binary64, sums from left to right"
  }
 ]
}