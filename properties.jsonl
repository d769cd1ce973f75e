{"id": "C01", "title": "mapper_labels gives every point exactly the labels of the clusters that contain it", "statement": "For every dataset, list of open sets and clustering, the list returned by mapper_labels at position i contains a label for each (open set, local cluster) pair whose cluster contains point i and nothing else; negative (noise) local labels contribute nothing; and two different (open set, local cluster) pairs never share a label.", "quantifier": "every dataset, every sequence of open sets (lists of point ids), every local labelling (including noise and non-contiguous labels)", "why_tests_cant": "offset bookkeeping across open sets depends on every earlier set; a test fixes a handful of sets and labels", "anchors": ["src/tdamapper/core.py:mapper_labels"]}
{"id": "C02", "title": "mapper_labels lists are strictly ascending; the documented cross-point order is false", "statement": "If every open set lists each point at most once, each point's label list is strictly ascending (hence duplicate free). The docstring's further sentence 'if i < j the labels at position i are strictly less than those at position j' is false.", "quantifier": "every dataset, cover output without repeated ids, clustering", "why_tests_cant": "sortedness must hold for every number of sets and every label pattern", "anchors": ["src/tdamapper/core.py:mapper_labels"]}
{"id": "C03", "title": "Mapper graph nodes are exactly the non-empty clusters", "statement": "The graph returned by mapper_graph has one node per non-empty cluster; the node's 'ids' attribute is the ascending list of the points of that cluster and 'size' is its length.", "quantifier": "every dataset, cover output, clustering", "why_tests_cant": "the node table is built incrementally over all points", "anchors": ["src/tdamapper/core.py:mapper_graph", "src/tdamapper/core.py:ATTR_IDS", "src/tdamapper/core.py:ATTR_SIZE"]}
{"id": "C04", "title": "Mapper graph edges are exactly the overlapping pairs of clusters", "statement": "Two nodes of the graph are adjacent if and only if they are different and their clusters share at least one point; adjacency is symmetric and there are no self loops.", "quantifier": "every dataset, cover output without repeated ids, clustering", "why_tests_cant": "edge presence depends on all pairs of labels of all points", "anchors": ["src/tdamapper/core.py:mapper_graph"]}
{"id": "C05", "title": "mapper_connected_components agrees with connectivity of the Mapper graph", "statement": "Two clustered points get the same component label iff some node of one is connected to some node of the other in the graph returned by mapper_graph on the same inputs; points in no cluster get -1 and no clustered point does; the label is itself a node of that component.", "quantifier": "every dataset, cover output, clustering", "why_tests_cant": "the union-find result depends on the whole union history and on path compression", "anchors": ["src/tdamapper/core.py:mapper_connected_components", "src/tdamapper/utils/unionfind.py:UnionFind"]}
{"id": "C06", "title": "aggregate_graph applies the aggregation to exactly the node's points", "statement": "aggregate_graph returns one entry per node, in node order, whose value is agg applied to the values X[i] for i in the node's ids in order; it fails only if an id is out of range or agg fails.", "quantifier": "every dataset, graph and aggregation function", "why_tests_cant": "must hold for every graph and callable", "anchors": ["src/tdamapper/core.py:aggregate_graph"]}
{"id": "C07", "title": "proximity_net covers the dataset and its sets are determined", "statement": "If search(X[i]) contains i for every i, every point of X belongs to a yielded set; every yielded set is non-empty and is search(X[i]) for a point i not contained in any previously yielded set; a point is passed over only if an earlier set contains it or nothing is found around it. These conditions determine the centers and the sets.", "quantifier": "every dataset and every search function", "why_tests_cant": "greedy covering depends on the whole iteration history", "anchors": ["src/tdamapper/core.py:proximity_net"]}
{"id": "C08", "title": "Trivial cover and clustering give one node containing the whole dataset", "statement": "TrivialCover yields exactly one open set with all ids (none for an empty dataset), TrivialClustering puts all points in cluster 0, and the Mapper graph built from them is a single node 0 with all points and no edges.", "quantifier": "every dataset, including the empty one", "why_tests_cant": "must hold at every size", "anchors": ["src/tdamapper/core.py:TrivialCover", "src/tdamapper/core.py:TrivialClustering", "src/tdamapper/learn.py:MapperAlgorithm"]}
{"id": "C09", "title": "FailSafeClustering never fails on ValueError and is transparent otherwise", "statement": "FailSafeClustering.fit yields the delegate's labels when the delegate succeeds, a single cluster 0 with one label per point when the delegate raises ValueError, and lets any other exception through.", "quantifier": "every delegate behaviour and every dataset", "why_tests_cant": "ranges over arbitrary delegates", "anchors": ["src/tdamapper/core.py:FailSafeClustering"]}
{"id": "C10", "title": "Results depend on thread scheduling only through shared clustering objects", "statement": "With n_jobs > 1, if the clones of the clustering share no object, mapper_labels (and MapperAlgorithm.fit with failsafe=False) gives under every interleaving of the worker threads the result of the sequential run, fails only if that fails, and every schedule ends. Clones share an object exactly for a FailSafeClustering around an object, or a MapperClustering around such. With the default failsafe=True this is the case, and a schedule exists under which MapperAlgorithm.fit silently returns another graph, which lacks covered and clustered points; with one job it is not.", "quantifier": "every schedule of worker threads, every dataset, cover and clustering", "why_tests_cant": "a test observes one schedule; the losing interleaving is rare", "anchors": ["src/tdamapper/core.py:mapper_labels", "src/tdamapper/_common.py:clone", "src/tdamapper/core.py:FailSafeClustering", "src/tdamapper/learn.py:MapperAlgorithm"]}
{"id": "C11", "title": "UnionFind represents the equivalence generated by the unions", "statement": "After any sequence of union and find calls on known elements, two elements have equal find results iff they are related by the equivalence closure of the pairs passed to union; find never changes this relation, and union returns the common representative.", "quantifier": "every item set and every finite sequence of operations", "why_tests_cant": "must hold for every history; path compression rewrites the structure on reads", "anchors": ["src/tdamapper/utils/unionfind.py:UnionFind"]}
{"id": "C12", "title": "UnionFind calls terminate and stay logarithmic", "statement": "After any sequence of operations, every find walks at most log2(n) parent links, where n is the number of elements; unknown elements raise KeyError.", "quantifier": "every item set and operation sequence", "why_tests_cant": "the depth bound is a property of all histories", "anchors": ["src/tdamapper/utils/unionfind.py:UnionFind.find", "src/tdamapper/utils/unionfind.py:UnionFind.union"]}
{"id": "C13", "title": "UnionFind needs a re-iterable collection", "statement": "UnionFind built from a list, set or other re-iterable collection answers find and union for all its elements. Built from a one-shot iterator, although documented for any iterable, it raises KeyError at the first union of two distinct elements, because the iterator is consumed by the first of two passes.", "quantifier": "every iterable, including one-shot iterators", "why_tests_cant": "ranges over iterator kinds and later operation sequences", "anchors": ["src/tdamapper/utils/unionfind.py:UnionFind.__init__"]}
{"id": "C14", "title": "MaxHeap behaves as a priority queue", "statement": "After any sequence of add and pop, len is the number of added minus popped entries, top and pop return an entry with a maximal key among the current entries (None when empty), pop removes exactly that entry, and draining the heap lists the entries in non-increasing key order.", "quantifier": "every operation sequence and every totally (pre)ordered key type", "why_tests_cant": "heap shape depends on the full history", "anchors": ["src/tdamapper/utils/heap.py:MaxHeap"]}
{"id": "C15", "title": "Iterating a MaxHeap", "statement": "One for loop over a MaxHeap visits each current entry exactly once. Nested loops over the same heap do not: the heap is its own iterator, so the inner loop restarts and exhausts the cursor of the outer one.", "quantifier": "every heap and every interleaving of iterations", "why_tests_cant": "depends on interleaving of iterator calls", "anchors": ["src/tdamapper/utils/heap.py:MaxHeap.__iter__", "src/tdamapper/utils/heap.py:MaxHeap.__next__"]}
{"id": "C16", "title": "partition splits the range around the pivot value", "statement": "partition(data, start, end, p) permutes only positions in [start, end), moves the extra arrays identically, and returns h such that entries in [start, h) are < p and those in [h, end) are not.", "quantifier": "every array, range, pivot and extra arrays", "why_tests_cant": "array contents of every size", "anchors": ["src/tdamapper/utils/quickselect.py:partition"]}
{"id": "C17", "title": "quickselect terminates and places the k-th smallest element", "statement": "For start <= k < end <= len, quickselect terminates, permutes only [start, end) moving extra arrays identically, and leaves data[i] <= data[k] for i in [start,k) and data[k] <= data[i] for i in [k,end); for k outside the range nothing changes.", "quantifier": "every array, range, k and extra arrays, duplicates included", "why_tests_cant": "termination and ordering for every array, including repeated values", "anchors": ["src/tdamapper/utils/quickselect.py:quickselect"]}
{"id": "C18", "title": "VPTree(kind='flat').ball_search returns exactly the points of the ball", "statement": "For every non-empty dataset, pseudo-metric, leaf_capacity >= 1, leaf_radius, pivoting strategy and random choices, ball_search(q, eps, inclusive) returns every dataset entry (with multiplicity) at distance <= eps (< eps if not inclusive) from q and nothing else.", "quantifier": "every dataset, metric, query, radius, builder parameters and RNG outcome", "why_tests_cant": "pruning correctness must hold for every tree shape and query", "anchors": ["src/tdamapper/utils/vptree.py:VPTree", "src/tdamapper/utils/vptree_flat/ball_search.py", "src/tdamapper/utils/vptree_flat/builder.py"]}
{"id": "C19", "title": "VPTree(kind='hierarchical').ball_search returns exactly the points of the ball", "statement": "Same as C18 for the hierarchical tree, also for the empty dataset.", "quantifier": "every dataset, metric, query, radius, builder parameters and RNG outcome", "why_tests_cant": "pruning correctness must hold for every tree shape and query", "anchors": ["src/tdamapper/utils/vptree_hier/ball_search.py", "src/tdamapper/utils/vptree_hier/builder.py"]}
{"id": "C20", "title": "VPTree(kind='flat').knn_search returns k nearest neighbours", "statement": "knn_search(q, k) returns min(k, n) dataset entries such that no entry left out is strictly closer to q than a returned one.", "quantifier": "every non-empty dataset, metric, query, k >= 0, builder parameters and RNG outcome", "why_tests_cant": "pruning against a shrinking radius must be right for every tree and visiting order", "anchors": ["src/tdamapper/utils/vptree_flat/knn_search.py"]}
{"id": "C21", "title": "VPTree(kind='hierarchical').knn_search returns k nearest neighbours", "statement": "Same as C20 for the hierarchical tree, also for the empty dataset.", "quantifier": "every dataset, metric, query, k >= 0, builder parameters and RNG outcome", "why_tests_cant": "pruning against a shrinking radius must be right for every tree and visiting order", "anchors": ["src/tdamapper/utils/vptree_hier/knn_search.py"]}
{"id": "C22", "title": "Tree kind, leaf parameters, pivoting and randomness never change answers", "statement": "For the same dataset and query, ball_search returns the same multiset of points, and knn_search the same sorted list of distances, whatever kind, leaf_capacity >= 1, leaf_radius, pivoting and RNG outcome were used to build the tree.", "quantifier": "every pair of parameter choices and RNG outcomes", "why_tests_cant": "compares all pairs of configurations", "anchors": ["src/tdamapper/utils/vptree.py:VPTree"]}
{"id": "C23", "title": "Range search stays correct with floating point distances", "statement": "With distances and the pruning subtraction rounded to floating point, ball_search is still exact if the computed distances satisfy the triangle inequality, and if they satisfy it only up to delta, it returns no wrong point and misses only points farther than eps - delta.", "quantifier": "every rounding that is monotone on representable values, every delta", "why_tests_cant": "rounding errors occur on rare inputs", "anchors": ["src/tdamapper/utils/vptree_flat/ball_search.py", "src/tdamapper/utils/vptree_hier/ball_search.py"]}
{"id": "C24", "title": "Searching an empty tree", "statement": "ball_search and knn_search on a hierarchical tree built from an empty dataset return an empty list. On a flat tree built from an empty dataset every search raises IndexError.", "quantifier": "every metric, query and parameter", "why_tests_cant": "ranges over all parameters", "anchors": ["src/tdamapper/utils/vptree_flat/ball_search.py:_search_iter", "src/tdamapper/utils/vptree_flat/knn_search.py:_search_iter"]}
{"id": "C25", "title": "BallCover.search returns the open ball", "statement": "After BallCover.fit(X), search(x) returns, each once, exactly the ids i with d(x, X[i]) < radius, for every kind, leaf and pivoting parameter.", "quantifier": "every dataset, query, radius and parameters", "why_tests_cant": "needs exactness of the index for every dataset", "anchors": ["src/tdamapper/cover.py:BallCover"]}
{"id": "C26", "title": "BallCover.apply is an open cover and its centers form an epsilon-net", "statement": "For radius > 0 every point is in some yielded set; each yielded set is the open ball around one of its points; two different centers are at distance >= radius.", "quantifier": "every dataset, metric and radius > 0", "why_tests_cant": "covering and separation for all datasets", "anchors": ["src/tdamapper/cover.py:BallCover.apply", "src/tdamapper/core.py:proximity_net"]}
{"id": "C27", "title": "KNNCover.search returns k nearest ids; KNNCover.apply covers the dataset", "statement": "search(x) returns min(k, n) distinct ids of nearest points. apply covers every point provided no point has k or more other points at distance 0. (Without that proviso coverage is false: duplicated points can be left out of every open set.)", "quantifier": "every dataset and k >= 1", "why_tests_cant": "failure needs duplicates beyond k", "anchors": ["src/tdamapper/cover.py:KNNCover", "src/tdamapper/core.py:proximity_net"]}
{"id": "C28", "title": "Cubical search returns the open hypercube of the query's cell", "statement": "After fitting on X, search(x) returns exactly the ids whose normalised coordinates are, in every dimension, within 1/(2-2*overlap_frac) of the center of x's grid cell.", "quantifier": "every non-empty dataset, n_intervals >= 1, overlap_frac in (0,1), query", "why_tests_cant": "all dimensions, all grids, degenerate (constant) coordinates included", "anchors": ["src/tdamapper/cover.py:BaseCubicalCover"]}
{"id": "C29", "title": "Cubical covers cover the dataset", "statement": "For 0 < overlap_frac < 1 and n_intervals >= 1, both the standard and the proximity cubical cover put every point of the dataset in some yielded open set, and every yielded set is non-empty. For overlap_frac > 1 (accepted with a warning) nothing is covered. Any other algorithm raises a ValueError on fit and on apply.", "quantifier": "every dataset, dimension, n_intervals, overlap_frac", "why_tests_cant": "boundary cells and degenerate coordinates for every dataset", "anchors": ["src/tdamapper/cover.py:StandardCubicalCover", "src/tdamapper/cover.py:ProximityCubicalCover", "src/tdamapper/cover.py:CubicalCover"]}
{"id": "C30", "title": "StandardCubicalCover yields one open set per occupied grid cell", "statement": "StandardCubicalCover.apply yields exactly one set for each grid cell that contains a data point, in reverse order of first occurrence. The documented 'all the hypercubes intersecting the dataset' is false: a hypercube that meets the data only in its overlap margin is not yielded.", "quantifier": "every dataset and grid", "why_tests_cant": "needs all placements of points relative to cell borders", "anchors": ["src/tdamapper/cover.py:StandardCubicalCover.apply"]}
{"id": "C31", "title": "Invalid or default overlap_frac", "statement": "overlap_frac <= 0 raises ValueError; the default is computed so that exactly half of each grid cell's volume is overlapped by neighbouring hypercubes, and lies in [1 / (3 m), 1/3] in dimension m.", "quantifier": "every dimension >= 1 and overlap value", "why_tests_cant": "real-valued identity for every dimension", "anchors": ["src/tdamapper/cover.py:BaseCubicalCover._get_overlap_frac", "src/tdamapper/cover.py:BaseCubicalCover.fit"]}
{"id": "C32", "title": "euclidean, manhattan and chebyshev are metrics", "statement": "Each of the three distances is symmetric, non-negative, zero exactly for equal vectors and satisfies the triangle inequality.", "quantifier": "all real vectors of every dimension", "why_tests_cant": "real inequality over all vectors", "anchors": ["src/tdamapper/utils/_metrics.py", "src/tdamapper/utils/metrics.py"]}
{"id": "C33", "title": "minkowski(p) is a metric for p >= 1", "statement": "minkowski(p) is a metric for every p >= 1 (p=1 is manhattan, p=2 euclidean, p=inf chebyshev); for 0 < p < 1, which is accepted, the triangle inequality fails.", "quantifier": "all real p and all real vectors", "why_tests_cant": "real inequality over all vectors and orders", "anchors": ["src/tdamapper/utils/metrics.py:minkowski", "src/tdamapper/utils/_metrics.py:minkowski"]}
{"id": "C34", "title": "cosine satisfies the triangle inequality", "statement": "cosine is symmetric, zero on equal vectors and satisfies the triangle inequality on all non-zero vectors; it equals the euclidean distance of the normalised vectors (so it is a metric on unit vectors but only a pseudo-metric in general).", "quantifier": "all non-zero real vectors of equal dimension", "why_tests_cant": "real inequality over all vectors", "anchors": ["src/tdamapper/utils/_metrics.py:cosine", "src/tdamapper/utils/metrics.py:cosine"]}
{"id": "C35", "title": "get_metric resolves names and callables", "statement": "get_metric returns a callable unchanged, the documented distance for each supported name (exactly the names of get_supported_metrics), and raises ValueError for any other value.", "quantifier": "every string and callable", "why_tests_cant": "ranges over all strings", "anchors": ["src/tdamapper/utils/metrics.py:get_metric", "src/tdamapper/utils/metrics.py:get_supported_metrics"]}
{"id": "C36", "title": "get_params / set_params round trip", "statement": "After set_params(k=v) on an existing public parameter, get_params()[k] is v and no other parameter changes; unknown or private names are ignored; nested names k__j reach the nested object whatever the order of the keyword arguments.", "quantifier": "every object, parameter set and order", "why_tests_cant": "all names, orders and nesting", "anchors": ["src/tdamapper/_common.py:ParamsMixin"]}
{"id": "C37", "title": "clone returns a fresh unfitted estimator with the same parameters", "statement": "clone(obj) is a new object of the same type with the same get_params and without fitted attributes, and cloning changes no parameter of any existing object. Nested estimators are shared with the original, not copied, so fitting the clone can alter the original's nested estimator.", "quantifier": "every estimator object graph", "why_tests_cant": "aliasing over all object graphs", "anchors": ["src/tdamapper/_common.py:clone"]}
{"id": "C38", "title": "Input validation accepts exactly finite, real, non-empty data", "statement": "fit on MapperAlgorithm and MapperClustering raises ValueError on numeric data exactly if X is sparse or 1-d or one of X, y is empty, complex, or has a NaN or an infinity, and otherwise proceeds with the data unchanged; arrays of Python objects are converted with float, whose exception is passed on, and other dtypes (strings) raise TypeError. Invalid data change no object. Lengths of X and y are not compared: a shorter y silently leaves points without node, a longer y fails, with IndexError unless the clustering raises first.", "quantifier": "every input", "why_tests_cant": "all shapes and values", "anchors": ["src/tdamapper/_common.py:EstimatorMixin._validate_X_y", "src/tdamapper/learn.py"]}
{"id": "C39", "title": "MapperAlgorithm.fit stores the Mapper graph and leaves its parameters untouched", "statement": "fit_transform(X, y) equals mapper_graph on the same data with cloned cover and clustering; refitting the same object gives the same result as a fresh object, whatever was fitted before; constructor parameters are unchanged by fit.", "quantifier": "every history of fit calls", "why_tests_cant": "state carried between fits", "anchors": ["src/tdamapper/learn.py:MapperAlgorithm"]}
{"id": "C40", "title": "MapperClustering labels are the connected components", "statement": "After MapperClustering.fit(X, y), labels_ has one label per row of X, equal exactly for points in the same connected component of the Mapper graph, and -1 for unclustered points.", "quantifier": "every dataset, cover and clustering", "why_tests_cant": "all inputs", "anchors": ["src/tdamapper/learn.py:MapperClustering"]}
{"id": "C41", "title": "Plot arrays line up with the graph", "statement": "In every backend, the i-th marker has the position, size and color of the i-th node; each edge is drawn exactly once, as a segment between the positions of its end points; in plotly the largest node has the full marker size and the others in proportion; colors lie within [cmin, cmax], which are attained, if the aggregated colors are totally ordered. (False in double precision with a NaN color at the first node.) Every Mapper graph meets the conditions for drawing, and drawing it succeeds.", "quantifier": "every graph, layout and color array", "why_tests_cant": "alignment for every graph", "anchors": ["src/tdamapper/plot_backends/plot_plotly.py", "src/tdamapper/plot_backends/plot_matplotlib.py", "src/tdamapper/plot_backends/plot_pyvis.py"]}
{"id": "C42", "title": "plot_plotly_update changes the settings given and nothing else", "statement": "On any figure, an update changes only attributes of the settings it is given, each of which takes effect; updating everything equals plotting. Exceptions, each with a witness: a title without colors always raises, colors without agg are ignored, colors without a title leave the old colors in the color menu, and other menus are removed.", "quantifier": "every figure and argument combination", "why_tests_cant": "all combinations of optional arguments", "anchors": ["src/tdamapper/plot_backends/plot_plotly.py:plot_plotly_update", "src/tdamapper/plot_backends/plot_plotly.py:_to_titles"]}
{"id": "C43", "title": "pyvis node size scales with node_size and the number of points", "statement": "In plot_pyvis, when the nodes differ in size, the drawn size of a node is the integer nearest to 25 * node_size * sqrt(n / max n), so larger nodes are never drawn smaller. When all nodes have equal size it is 25 whatever node_size is, and the tooltip shows the drawn size as the number of points.", "quantifier": "every graph and node_size", "why_tests_cant": "all graphs", "anchors": ["src/tdamapper/plot_backends/plot_pyvis.py:_compute_net"]}
{"id": "C44", "title": "fix_data removes missing values", "statement": "fix_data keeps exactly the numeric columns having at least one value, in order, replaces missing entries by the mean of the column, and leaves the other entries unchanged; on finite data no missing entry is left, column means are unchanged (exact arithmetic), and fixing again changes nothing. (False with infinities: a column with both infinities keeps its missing entries.)", "quantifier": "every data frame", "why_tests_cant": "all patterns of missing entries", "anchors": ["src/tdamapper/app.py:fix_data"]}
{"id": "C45", "title": "App settings reach the Mapper run exactly when usable", "statement": "The configuration used for a run equals the values shown in the controls exactly if both scaling switches are off, no number is zero or cleared, no choice is cleared, integer settings are whole, and the dimensions are 2 or 3. Otherwise not: the scaling switches are never read, a zero (such as seed 0 or overlap 0) is replaced by the default, and cleared dimensions raise TypeError.", "quantifier": "every control state", "why_tests_cant": "all control values", "anchors": ["src/tdamapper/app.py:App.get_mapper_config"]}
{"id": "C46", "title": "Which graph the app draws", "statement": "Graph and lens values of anything drawn always come from one run on data loaded at some time. If data is loaded while nothing is computed, and nothing else is loaded and nothing redrawn before a run ends well, everything drawn from then on is that data with a graph of it. Otherwise not: after loading other data, Redraw pairs it with the old graph, and data loaded during a run is drawn with the graph of that run.", "quantifier": "every sequence and interleaving of load, run and redraw events", "why_tests_cant": "all event interleavings", "anchors": ["src/tdamapper/app.py:App.load_data", "src/tdamapper/app.py:App.async_run_mapper", "src/tdamapper/app.py:App.async_draw_mapper"]}
{"id": "C47", "title": "cosine in double precision", "statement": "In exact arithmetic cosine(x, x) = 0 (C34). In double precision this is false: for x = (1, 1, 1) the rounded similarity exceeds 1 and the distance is NaN, so a BallCover with metric='cosine' leaves that point out of every open set, whatever the radius. On vectors of m <= 2^20 entries of absolute value at most 2^300 and norm at least 2^-300 the computed distance d is symmetric, never raises, is NaN only if the true distance D has D^2 <= (6m+34) 2^-52, and otherwise |d^2 - D^2| <= (6m+40) 2^-52, in whatever order the compiled code sums up and fuses the products; hence every set of a BallCover lies in a ball of the true distance, hardly larger than the radius, around a point of the dataset. (False: different directions can be at computed distance 0.)", "quantifier": "existence of a failing dataset; for all vectors of doubles within the stated limits, for all ball covers", "why_tests_cant": "only some vectors round the wrong way; subtracting the similarity from 1 cancels, so that only the square of the distance is accurate", "anchors": ["src/tdamapper/utils/_metrics.py:cosine", "src/tdamapper/cover.py:BallCover"]}
{"id": "C48", "title": "Menus and slider of a plotly figure show what plotting would", "statement": "Choosing the i-th entry of the color menu, of the node size slider or of the colorscale menu of a figure made by plot_plotly gives the traces of plotting with the i-th color column and title, the i-th node size, or the i-th known colorscale; the entries marked active at first match what is drawn. (Except when the first colorscale is not a known one: it is drawn, but the menu starts with another.)", "quantifier": "every graph, color array, list of titles, sizes and colorscales, 2d and 3d", "why_tests_cant": "all combinations of entries and inputs", "anchors": ["src/tdamapper/plot_backends/plot_plotly.py:_ui_menu_color", "src/tdamapper/plot_backends/plot_plotly.py:_ui_menu_cmap", "src/tdamapper/plot_backends/plot_plotly.py:_ui_slider_node_size"]}
{"id": "C49", "title": "A run of the app uses the selected components and nothing else", "statement": "run_mapper applies the selected lens to the columns not excluded, scales as asked, and runs Mapper with the selected cover and clustering and their parameters; the returned lens frame has the unscaled lens values, one row per point, with columns named after the lens. Parameters of components not selected and the contents of excluded columns have no effect. The result is None exactly for empty data or an unknown cover or clustering; an unknown lens is silently replaced by PCA with two components.", "quantifier": "every data frame, configuration, lens, scaler and Mapper implementation", "why_tests_cant": "all combinations of settings", "anchors": ["src/tdamapper/app.py:run_mapper"]}
{"id": "C50", "title": "The graph of a run can be drawn, and its color menu shows every column", "statement": "After a successful run, create_mapper_figure succeeds with the same data, in 2d and 3d, with or without labels; the color menu has one entry per column of labels, lens and data, in this order and under its name, and choosing it colors each node with the mean of that column over the points of the node. On an idle page, loading data, running and waiting shows exactly that data with its graph.", "quantifier": "every data frame with columns of full length, every layout with a row per node", "why_tests_cant": "all datasets, graphs and settings", "anchors": ["src/tdamapper/app.py:create_mapper_figure", "src/tdamapper/app.py:App.async_run_mapper", "src/tdamapper/app.py:App.async_draw_mapper"]}
{"id": "C51", "title": "The app holds the data last uploaded or loaded", "statement": "After any sequence of events, the data and labels stored are those of the last upload or example load, prepared by fix_data, and no other event changes them. Load Data with the source CSV changes nothing, so an example loaded after an upload stays, although success is reported.", "quantifier": "every sequence of events", "why_tests_cant": "all event sequences", "anchors": ["src/tdamapper/app.py:App.load_data", "src/tdamapper/app.py:App.upload_file"]}
{"id": "C52", "title": "Covers on distances computed in double precision", "statement": "With euclidean, manhattan or chebyshev computed in IEEE double precision on vectors of up to 2^20 finite numbers of absolute value at most 2^500, the computed distance is finite, symmetric, zero from a vector to itself and within an explicit rounding error of the true one. BallCover (and KNNCover, if no point has too many others at distance zero) then covers every point, whatever rounding does; each ball holds only points closer than the radius and all points closer by a margin of four rounding errors; the neighbours that KNNCover finds are nearest up to six rounding errors. The same holds if sums are computed in any order and grouping, with or without fused multiply-add, as fastmath permits. (False if distances overflow: points are left uncovered. The margins are needed: a search can miss a point whose computed distance is below the radius, and the neighbour found can be farther away than a point left out.)", "quantifier": "all datasets and queries of such vectors, all finite radii, both tree kinds, all pivots", "why_tests_cant": "rounding errors depend on the bits of every coordinate; the failing inputs are rare", "anchors": ["src/tdamapper/cover.py:BallCover.apply", "src/tdamapper/cover.py:BallCover.search", "src/tdamapper/cover.py:KNNCover.apply", "src/tdamapper/utils/_metrics.py:euclidean", "src/tdamapper/utils/_metrics.py:manhattan", "src/tdamapper/utils/_metrics.py:chebyshev"]}
{"id": "C53", "title": "Cubical covers in double precision", "statement": "Computed in IEEE double precision with up to 2^50 intervals, both cubical algorithms cover every point if overlap_frac (below 1) exceeds an explicit rounding error, 2^-52 * n_intervals * (|min| / width + 64) on every axis; the sets are non-empty lists of distinct points. For overlap_frac up to 1/2, each set is the hypercube of a grid cell up to this error in cell units, if no column has a range between 2^-52 and 2^-51. (The bound is needed: on three doubles from 10^16 on, or with an overlap of 2^-56, points are left uncovered.) With the default overlap_frac and a power function of relative error at most 2^-52, the computed overlap is the documented one up to 8 * 2^-52, and the same holds.", "quantifier": "all datasets of finite numbers of absolute value at most 2^500, all settings, both algorithms", "why_tests_cant": "whether a point on a cell border is kept depends on the rounding of five operations per axis", "anchors": ["src/tdamapper/cover.py:BaseCubicalCover.fit", "src/tdamapper/cover.py:BaseCubicalCover.search", "src/tdamapper/cover.py:ProximityCubicalCover.apply", "src/tdamapper/cover.py:StandardCubicalCover.apply"]}
{"id": "C54", "title": "Mapper loses no point", "statement": "If the cover is proper (no error, non-empty sets of distinct points, every point covered) and the clustering gives each point of a non-empty set a non-negative label, then mapper_labels, mapper_graph and mapper_connected_components succeed, every point has a label, is in a node and has a component that is a node. This holds for BallCover and CubicalCover (also with the default overlap_frac) in double precision under the conditions of the two properties above. In general a point has no label exactly if every open set that contains it leaves it out as noise.", "quantifier": "all datasets, lenses, covers and clusterings", "why_tests_cant": "composition of every stage from floating-point lens values to the graph", "anchors": ["src/tdamapper/core.py:mapper_labels", "src/tdamapper/core.py:mapper_graph", "src/tdamapper/core.py:mapper_connected_components"]}
{"id": "C55", "title": "Search tree parameters do not change the Mapper graph", "statement": "The parameters kind, leaf_capacity, leaf_radius and pivoting (and the random choices) of BallCover, of KNNCover on data without ties, and of CubicalCover with either algorithm change at most the order of points within an open set. If the clustering forms the same clusters from the same points in another order, the Mapper graph is the same up to renaming nodes, with the same point sets and edges, and the connected components give the same partition. (False for a clustering that depends on the order of points, and for KNNCover with ties, where leaf_capacity can change even the number of open sets.)", "quantifier": "all datasets, pseudometrics, radii, tree parameters and clusterings", "why_tests_cant": "trees with different parameters visit points in unrelated orders, so the cluster labels differ", "anchors": ["src/tdamapper/cover.py:BallCover.apply", "src/tdamapper/cover.py:KNNCover.apply", "src/tdamapper/cover.py:ProximityCubicalCover.apply", "src/tdamapper/core.py:mapper_graph", "src/tdamapper/core.py:mapper_connected_components"]}
{"id": "C56", "title": "Recursion depth of the search tree", "statement": "The hierarchical vp-tree on n points, with n at most leaf_capacity * 2^h, is built and searched (ball and k-nearest-neighbour) with at most h + 1 nested calls, whatever the metric, the pivoting and the data (duplicates included); so Python's recursion limit is never hit. The bound is sharp. A lower limit can only make a call raise: it never changes a tree or an answer, and a limit up to the depth of the nearest leaf makes every search raise.", "quantifier": "all datasets, distance functions, queries and tree parameters", "why_tests_cant": "a split that is not balanced, for example on equal distances, would make the depth linear", "anchors": ["src/tdamapper/utils/vptree_hier/builder.py:Builder._build_rec", "src/tdamapper/utils/vptree_hier/ball_search.py:BallSearch._search_rec", "src/tdamapper/utils/vptree_hier/knn_search.py:KnnSearch._search_rec"]}
{"id": "C57", "title": "The text of an object rebuilds it", "statement": "repr of an object with ParamsMixin is Class(k=text, ...) with the public parameters, in order, whose text differs from the default's; it exists if references between objects have no cycle. A clone has the same text, fitting does not change it, and evaluating it (when the texts of the other values can be read back) makes a new object of the same class whose parameters have the same texts, and the same values where the text identifies the value; so its text is the same. Two objects with the same text have the same class, and the same texts of all parameters, if the texts of other values have matching brackets, no comma outside of them, and do not look like constructions of objects of the library. It has no text for an object with a public attribute that the constructor does not set.", "quantifier": "all heaps of objects made by their constructors, any nesting", "why_tests_cant": "the tests check clone and eval on a few objects only (tests/test_unit_sklearn.py:32-42)", "anchors": ["src/tdamapper/_common.py:ParamsMixin.__repr__", "src/tdamapper/_common.py:clone"]}
{"id": "C58", "title": "Covers do not depend on the coordinates", "statement": "Ball and KNN covers of two datasets with the same distances yield the same sets in the same order. With the named metrics, moving all points changes nothing, and scaling them changes nothing if the radii are scaled, too; cosine covers only depend on the directions of the points. Cubical covers are unchanged when each column gets its own unit and zero. (False: around the tolerance for constant columns the unit matters; with p=0 distances do not scale; and ball covers do depend on the order of the points.)", "quantifier": "all datasets, parameters, trees, shifts and positive factors; the first claim for every metric and arithmetic", "why_tests_cant": "a search that looks at coordinates, or an absolute tolerance in the wrong place, makes the result depend on the unit of measurement", "anchors": ["src/tdamapper/cover.py:BallCover.apply", "src/tdamapper/cover.py:KNNCover.apply", "src/tdamapper/cover.py:BaseCubicalCover._get_bounds", "src/tdamapper/utils/_metrics.py:cosine"]}
{"id": "C59", "title": "The Mapper graph does not depend on the order of the rows", "statement": "When the rows of the dataset and of the lens are put in another order, the standard cubical cover yields the same sets of points, in some order; and Mapper, with a clustering that looks neither at the order of the points nor at the number of its call (such as the default one), yields the same graph and the same connected components, except for names of nodes and for the ids following the rows. The last claim holds for every cover that yields the same sets of points. (False for the proximity cover, whose number of sets depends on the order.)", "quantifier": "all datasets, permutations of the rows, cover parameters and such clusterings", "why_tests_cant": "rows of a table are often sorted or shuffled; results should not depend on it", "anchors": ["src/tdamapper/cover.py:StandardCubicalCover.apply", "src/tdamapper/core.py:mapper_graph", "src/tdamapper/core.py:mapper_connected_components"]}
{"id": "C60", "title": "Notifications of the app stop, and tell what happened", "statement": "After any sequence of uploads, loads, runs, redraws and results coming back in any order, the notifications with a spinner are as many as the runs and drawings being computed plus one for each abandoned event, that is one that raised outside of the handlers' try. With working third parties, every drawing the page starts can be made, whatever was loaded in between; so if the controls could be read each time, no spinner is left once nothing is computed. A run or drawing that comes back is reported in its own notification, and no other changes. (False: with a cleared number field the spinner stays for ever, and a run whose graph was stored may be reported as failed.)", "quantifier": "all histories of events of a page, any data and controls", "why_tests_cant": "a spinner that never stops looks like a run that never ends", "anchors": ["src/tdamapper/app.py:App.async_run_mapper", "src/tdamapper/app.py:App.async_draw_mapper", "src/tdamapper/app.py:App.notification_running_start", "src/tdamapper/app.py:App.notification_running_stop"]}
{"id": "C61", "title": "Number of calls of the metric", "statement": "Building a search tree over n points calls the metric at most n * ceil(log2 n) times without furthest-point pivoting and at most 3 n (ceil(log2 n) + 1) times in any case, always on two points of the dataset. A ball or nearest-neighbour query makes at most n calls, always on the query and a point of the dataset, whatever the metric. So applying a BallCover or KNNCover makes at most 3 n (ceil(log2 n) + 1) calls plus n for each open set it yields.", "quantifier": "all datasets, metrics, tree parameters and queries", "why_tests_cant": "metrics are the expensive part; a search that visits a node twice stays correct and silently becomes slow", "anchors": ["src/tdamapper/utils/vptree_flat/builder.py:Builder.build", "src/tdamapper/utils/vptree_hier/builder.py:Builder.build", "src/tdamapper/utils/vptree_flat/knn_search.py:KnnSearch.search", "src/tdamapper/utils/vptree_hier/ball_search.py:BallSearch.search", "src/tdamapper/cover.py:BallCover.apply"]}
{"id": "C62", "title": "Metrics that raise", "statement": "If the metric raises on some pairs, building a tree succeeds or raises the exception of a call on two points of the dataset; a query on a built tree returns the right answer or raises the exception of a call on the query and a point of the dataset. The open sets yielded by BallCover and KNNCover are those of the full cover, or its first ones followed by such an exception. mapper_labels, mapper_connected_components and mapper_graph on such covers return what they would if no call raised, or raise such an exception. Calls that do not raise leave the behaviour unchanged.", "quantifier": "all datasets, pseudo-metrics with any set of pairs on which the call raises, tree parameters and queries", "why_tests_cant": "user metrics fail on unexpected data; the failure must not turn into a wrong answer", "anchors": ["src/tdamapper/utils/vptree.py:VPTree", "src/tdamapper/cover.py:BallCover.apply", "src/tdamapper/cover.py:KNNCover.apply", "src/tdamapper/core.py:proximity_net"]}
{"id": "C63", "title": "Numbers in tooltips", "statement": "A finite number formatted with p digits reads as a number of p significant digits nearest to it (relative error at most half a unit of the last digit), larger numbers never read smaller, numbers that stand for decimals of at most p <= 15 digits are shown as them, and texts are canonical and at most p + 7 characters long. Ties go to the even digit; texts have no needless zeros and have an exponent exactly for numbers below 10^-4 or at least 10^p. So the tooltip of each plotly marker and the title of each pyvis node name the node, give its aggregated color to three digits, and in plotly its number of points exactly if below 100000; different nodes have different tooltips. (False for larger sizes: 100000 and 100001 both read 1e+05.)", "quantifier": "all doubles, numbers of digits, graphs and plots", "why_tests_cant": "tooltips are how numbers are read off the graph", "anchors": ["src/tdamapper/plot_backends/plot_plotly.py:_fmt", "src/tdamapper/plot_backends/plot_plotly.py:PlotlyPlot._text", "src/tdamapper/plot_backends/plot_pyvis.py:_fmt", "src/tdamapper/plot_backends/plot_pyvis.py:_compute_net"]}
{"id": "C64", "title": "Default colour of a node", "statement": "With the default aggregation (np.nanmean), in double precision and for every order of the additions, the colour of a node is NaN exactly when all values of its points are, and otherwise the average of the others up to rounding, so between the smallest and the largest of them up to rounding; averages of integers are the nearest double, equal integers give that integer. Plotly and matplotlib show these averages, and when every node has a value the limits of the colour scale are the least and the greatest. Pyvis takes the limits over the nodes that have a value, and gives a node without a value the colour of the largest value. Not in general: equal values can give another number (three times 0.1), the order of the points can matter, and large values overflow.", "quantifier": "all value lists of up to 2^20 numbers that are NaN or at most 2^1000 in size, orders of summation, graphs and plots", "why_tests_cant": "the colour of a node is the main thing read off a Mapper graph", "anchors": ["src/tdamapper/plot.py:MapperPlot.plot_matplotlib", "src/tdamapper/plot.py:MapperPlot.plot_plotly", "src/tdamapper/plot.py:MapperPlot.plot_pyvis", "src/tdamapper/core.py:aggregate_graph"]}
{"id": "C65", "title": "How often hypercubes overlap", "statement": "For 0 < overlap_frac < 1 the open sets of the cubical covers are the hypercubes of different grid cells, and if 1 / (1 - overlap_frac) <= K, every point is in at most K^m of them (m columns), gets at most K^m labels, and clusters joined by an edge come from cells less than K apart in every column; with the trivial clustering every node has fewer than (2K - 1)^m neighbours. So up to overlap_frac = 0.5, in particular by default, points are in at most 2^m sets and a one-dimensional Mapper graph is made of paths or cycles (degree at most 2); for every overlap_frac above 0.5 this fails, and exactly then fit warns (and, if warnings are errors, raises). In double precision, for overlap_frac at most 0.5 and above the rounding error E of the grid, the same holds for 1 / (1 - overlap_frac) + 2 E <= K: at most 3^m sets, and 2^m if overlap_frac <= 0.5 - E. (False: 2^m at exactly 0.5, where one of the numbers 0.2, 0.3, ..., 1.2 is in three of five intervals.)", "quantifier": "all datasets, numbers of columns and intervals, overlap fractions in (0, 1), warning filters", "why_tests_cant": "overlap_frac controls how connected the graph is; the documentation and the warning say to keep it at most 0.5", "anchors": ["src/tdamapper/cover.py:BaseCubicalCover.fit", "src/tdamapper/cover.py:StandardCubicalCover.apply", "src/tdamapper/cover.py:ProximityCubicalCover.apply", "src/tdamapper/_common.py:warn_user", "src/tdamapper/core.py:mapper_labels", "src/tdamapper/core.py:mapper_graph"]}
{"id": "C66", "title": "The page written by plot_pyvis", "statement": "plot_pyvis touches no file but output_file. When it returns, that file holds the page of this plot whatever was there before: the network followed by a colour bar with the given title and colour scale, whose limits are those the nodes were coloured with, so that each node has the colour the bar shows at its aggregated value. It returns exactly if the plot can be computed, the file opened and the page written. When it raises, the file is as before, except if writing itself failed: then it holds a beginning of the new page. (False: after an exception the old page is always still there.)", "quantifier": "all graphs, settings, file systems, and failures of opening and writing at any point", "why_tests_cant": "a failing disk or metric cannot be tried at every point; a half-written report must be recognised", "anchors": ["src/tdamapper/plot_backends/plot_pyvis.py:plot_pyvis", "src/tdamapper/plot_backends/plot_pyvis.py:_combine", "src/tdamapper/plot_backends/plot_pyvis.py:_colorbar", "src/tdamapper/plot.py:MapperPlot.plot_pyvis"]}
{"id": "C67", "title": "Components follow chains of shared clusters and respect gaps in the data", "statement": "Two points get the same connected component (other than -1), and the same MapperClustering label, exactly if a chain of points leads from one to the other with neighbouring points in a common cluster. Hence with BallCover, for any function as metric and any clustering, they are joined by a walk along data points with steps shorter than the radius: groups of points whose distances to all others are at least the radius are never joined. With the cubical covers the steps are shorter, in every column, than the cell width divided by 1 - overlap_frac. With TrivialCover the components are the clusters of the clustering. (False: points closer than the radius are always joined; a larger radius joins at least as much. Both depend on the order of the data.)", "quantifier": "all datasets, lenses, metrics, covers, clusterings and tree parameters", "why_tests_cant": "connected components are the coarsest summary of a Mapper graph; whether they reflect true gaps cannot be seen from examples", "anchors": ["src/tdamapper/core.py:mapper_connected_components", "src/tdamapper/core.py:mapper_labels", "src/tdamapper/cover.py:BallCover.apply", "src/tdamapper/cover.py:BaseCubicalCover.search", "src/tdamapper/core.py:TrivialCover", "src/tdamapper/learn.py:MapperClustering.fit"]}
{"id": "C68", "title": "How often balls overlap, and the size of the graph", "statement": "On rows of m numbers, with the euclidean (m <= K^2), manhattan or minkowski (m <= K) or chebyshev (K = 1) distance, every point is in at most (2K)^m of the sets of BallCover, whatever the radius and the number of points. So with any clustering a point has at most (2K)^m labels, and the Mapper graph of n points has at most n B nodes and n B (B - 1) / 2 edges for B = (2K)^m (B = K^m with the cubical covers, for 1 / (1 - overlap_frac) <= K); with the trivial clustering every node has fewer than (4K)^m neighbours. With distances computed in double precision the bounds are (2K+1)^m and (4K+1)^m, if the radius is at least 20 K + 4 times the rounding error of the largest distance; (2K)^m is false then. (False for metrics in general: for every n there are n + 1 points, one of which is in n balls, or in the neighbourhoods of n points with KNNCover.)", "quantifier": "all datasets, numbers of columns, radii, tree parameters and clusterings", "why_tests_cant": "the size of the graph decides whether Mapper is usable on large data; a bound that is independent of the data cannot be tested", "anchors": ["src/tdamapper/cover.py:BallCover.apply", "src/tdamapper/core.py:proximity_net", "src/tdamapper/core.py:mapper_labels", "src/tdamapper/core.py:mapper_graph", "src/tdamapper/utils/metrics.py:get_metric"]}
{"id": "C69", "title": "Finer clusterings and larger overlaps give related graphs", "statement": "With TrivialClustering the Mapper graph is the nerve of the cover: node k is the k-th set, and edges join sets with common points. If every cluster of one run lies in a cluster of another run, the graph of the first maps to that of the second (nodes to nodes with at least the same points, edges to edges or single nodes) and its components are finer. For one cover and a clustering that splits the clusters of another one, edges go to edges, and the map is onto all points and edges if no further points are left out as noise; so every Mapper graph maps to the nerve. With StandardCubicalCover and TrivialClustering, raising overlap_frac keeps the nodes with their numbers, adds points and edges and only joins components. (False for ProximityCubicalCover: it can split components.)", "quantifier": "all datasets, covers without empty sets or repetitions, clusterings, overlap fractions", "why_tests_cant": "statements about pairs of runs on arbitrary data; users vary these parameters and compare the graphs", "anchors": ["src/tdamapper/core.py:mapper_labels", "src/tdamapper/core.py:mapper_graph", "src/tdamapper/core.py:mapper_connected_components", "src/tdamapper/core.py:TrivialClustering", "src/tdamapper/cover.py:StandardCubicalCover.apply", "src/tdamapper/cover.py:ProximityCubicalCover.apply"]}
{"id": "C70", "title": "Appending rows keeps balls, cells and the graph on them", "statement": "Appending rows to the lens: BallCover keeps its centers in place and adds later ones, all new rows at least the radius away from every other center; the old balls have the same old points. ProximityCubicalCover does the same, and StandardCubicalCover puts the new cells before the old ones, if the new rows are within the bounds of the columns. With TrivialClustering no node and no edge is lost (node numbers stay, or grow by the number of new cells) and components are only joined. Rows at distance 0 from old ones add no ball, node or edge. (False for KNNCover, and for cubical covers when the bounds change.)", "quantifier": "all datasets, rows appended, pseudo-metrics, radii, interval numbers and overlap fractions", "why_tests_cant": "statements about pairs of runs on arbitrary data of different lengths; users add data and compare the graphs", "anchors": ["src/tdamapper/core.py:mapper_graph", "src/tdamapper/core.py:mapper_connected_components", "src/tdamapper/core.py:proximity_net", "src/tdamapper/cover.py:BallCover.apply", "src/tdamapper/cover.py:ProximityCubicalCover.apply", "src/tdamapper/cover.py:StandardCubicalCover.apply", "src/tdamapper/cover.py:KNNCover.apply"]}
{"id": "C71", "title": "The entry point of the app and its clients", "statement": "main registers the page and runs the server on the port written in PORT (8080 if not set) exactly if PORT is the text of an integer as int() reads it (white space around, a sign, digits with single underscores in between, at most 4300 digits); otherwise it raises ValueError and no server runs (also when PORT is set but empty). HOST and STORAGE_SECRET are used as given; the server reloads unless PRODUCTION is 'true' in lower or upper case. Every client has its own page: whatever other clients do in between, it is what the client's own events make of a new page, so a client is only shown data it loaded and graphs of runs it started.", "quantifier": "all environments of ASCII texts; all histories of any number of clients", "why_tests_cant": "a parser of texts of any length, and interleavings of any number of clients", "anchors": ["src/tdamapper/app.py:main", "src/tdamapper/app.py:startup", "src/tdamapper/_run_app.py:run"]}
{"id": "C72", "title": "The former web application: caches, limits and downloads", "statement": "For app/streamlit_app.py, run again after each change of a control and keeping the results of load_data, compute_mapper, compute_mapper_plot and compute_mapper_fig in caches: whatever was shown before, the data and the graph of the page are those of the selected inputs (if algorithms with the same text do the same), and the plot has the nodes and edges of that graph. The whole page is the one a newly started app shows if, among the inputs so far, graphs with the same nodes and edges, plots with the same positions and aggregations with the same name are the same. If limits are enabled, pages only show data and graphs within them and a larger graph raises ValueError; limits are enabled exactly if LIMITS_ENABLED is a non-empty text. The downloaded table stacks the features over the labels, filled up with NaN. (False: the page depends on the selected inputs only - the attributes of graphs are not part of the keys, so that a figure can show the colours of an earlier graph, or raise IndexError; LIMITS_ENABLED=False disables the limits; the downloaded table has the features and the label of a sample in one row.)", "quantifier": "all sequences of inputs, datasets, algorithms, limits and environments", "why_tests_cant": "stale caches only show for particular sequences of inputs", "anchors": ["app/streamlit_app.py:load_data", "app/streamlit_app.py:compute_mapper", "app/streamlit_app.py:compute_mapper_plot", "app/streamlit_app.py:compute_mapper_fig", "app/streamlit_app.py:_encode_graph", "app/streamlit_app.py:_check_limits_mapper_graph", "app/streamlit_app.py:main"]}
{"id": "C73", "title": "The aggregations of the former web application", "statement": "In exact arithmetic: \"Mode\" is the least of the most frequent values and raises ValueError exactly for no values; \"Quantile\" of rank q in [0, 1] is the linear interpolation of the sorted numbers, so has fewer than (n - 1) q + 1 of them below and fewer than (n - 1) (1 - q) + 1 above it, is the least for q = 0 and the greatest for q = 1 and grows with q, and is NaN exactly if there is no number; \"Std\" is zero exactly if all numbers are equal, at most half of the range, unchanged by shifts and scaled with the values; \"Mean\" has the least squares, and differs from the median by at most \"Std\". None of them depends on the order of the points. For the ranks of the slider (hundredths) the names tell the aggregations apart, as the cache of figures needs. (False: \"Mode\" ignores missing values as the others do - it is NaN if these are most frequent; names tell apart quantiles of any rank.)", "quantifier": "all lists of numbers and missing values (for Mode also infinite ones), ranks, shifts and factors", "why_tests_cant": "the colours of the nodes depend on these functions; laws over all lists and ranks cannot be tested", "anchors": ["app/streamlit_app.py:mode", "app/streamlit_app.py:quantile", "app/streamlit_app.py:plot_agg_input_section"]}
{"id": "C74", "title": "The downloaded graph and the statistics of the former web application", "statement": "The text offered as download of the graph (JSON of networkx's adjacency data) determines the graph: its nodes with their sizes and points and their neighbours, all in order; different values have different texts. In the table of statistics, the number of connected components is the number of labels other than -1 that mapper_connected_components gives for the same data, and the numbers of nodes and edges count the nodes and the pairs of adjacent nodes.", "quantifier": "all well-formed graphs; all datasets, covers and clusterings", "why_tests_cant": "a download is only useful if nothing is lost; two ways of counting components are compared for all data", "anchors": ["app/streamlit_app.py:mapper_download_button", "app/streamlit_app.py:data_summary_section", "src/tdamapper/core.py:mapper_connected_components"]}
{"id": "C75", "title": "The controls of the former web application and the texts of their algorithms", "statement": "For all settings of the controls of app/streamlit_app.py, mapper_input_section makes the MapperAlgorithm that was chosen: cover and clustering with all their parameters, looking at no other control. The text by which compute_mapper's cache knows the algorithm tells different choices apart (if the texts of numbers, names and scikit-learn's algorithms do), so the cache never takes one algorithm for another. The control for the overlap goes from 0 to 1: the cubical cover can be fitted exactly for values other than 0 (ValueError) and 1 (ZeroDivisionError), and always with the default overlap.", "quantifier": "all settings of the controls, pairs of settings, ways of writing numbers; all datasets", "why_tests_cant": "two of infinitely many settings with the same text would show the graph of one for the other", "anchors": ["app/streamlit_app.py:mapper_input_section", "app/streamlit_app.py:mapper_cover_input_section", "app/streamlit_app.py:mapper_clustering_input_section", "app/streamlit_app.py:mapper_clustering_cover", "src/tdamapper/_common.py:ParamsMixin.__repr__", "src/tdamapper/cover.py:BaseCubicalCover.fit"]}
{"id": "C76", "title": "When rounding does not change the Mapper graph", "statement": "With euclidean, manhattan or chebyshev on vectors of up to 2^20 finite numbers of absolute value at most 2^500: if no distance between two points is less than one rounding error (of the largest distance) above the radius or less than four below it, BallCover computed in double precision gives the same open sets, in the same order, as in exact arithmetic, whatever the trees; with a clustering that ignores the order of the points, mapper_graph and mapper_connected_components give the same graph and components except for names. For KNNCover the same holds if around each point the nearest are nearer than the others by more than six rounding errors, and for both cubical algorithms with overlap_frac at most 0.5 if no point is within the rounding error of the grid (property 53) of a border between cells or a face of a hypercube. (False without such a margin: two points are in one ball in exact arithmetic and in two balls in double precision.)", "quantifier": "all datasets of such vectors, all radii and numbers of neighbours, all trees, all clusterings that ignore the order of the points", "why_tests_cant": "a test has no exact arithmetic to compare with, and inputs near a radius are rare", "anchors": ["src/tdamapper/cover.py:BallCover.apply", "src/tdamapper/cover.py:KNNCover.apply", "src/tdamapper/cover.py:CubicalCover.apply", "src/tdamapper/core.py:mapper_graph", "src/tdamapper/core.py:mapper_connected_components"]}
