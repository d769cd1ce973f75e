(** Model of the controls of app/streamlit_app.py with which the former app makes
    its Mapper algorithm. The widgets are the values they return: a [selectbox]
    its option, a [checkbox] a boolean, a [number_input] an integer or a float.
    Floats are numbered ([VData]), as in [ModelRepr]. Every widget has a value,
    those of the branches that are not taken are not looked at (in the code they
    are not drawn). Constructors are [construct] of [ModelRepr]. *)
From Coq Require Import String.
From Verif Require Import Base Dict ModelCore ModelObjects ModelRepr.
Open Scope nat_scope.
Open Scope list_scope.
Local Open Scope string_scope.

(** streamlit_app.py:383-432 and, for the clustering, 437-496. *)
Record cover_controls : Type := mkcc {
  cc_type : string;
  cc_radius : nat;
  cc_metric : string;
  cc_intervals : Z;
  cc_set_overlap : bool;
  cc_overlap : nat;
  cc_neighbors : Z }.

(** streamlit_app.py:604-617 and the controls of 436-598. *)
Record clustering_controls : Type := mklc {
  lc_type : string;
  lc_cover : cover_controls;
  lc_kmeans_clusters : Z;
  lc_agglomerative_clusters : Z;
  lc_linkage : string;
  lc_agglomerative_metric : string;
  lc_eps : nat;
  lc_min_samples : Z;
  lc_dbscan_metric : string;
  lc_min_cluster_size : Z;
  lc_hdbscan_metric : string;
  lc_damping : nat;
  lc_max_iter : Z }.

Record controls : Type := mkcontrols { co_cover : cover_controls; co_clustering : clustering_controls }.

Definition alloc (h : heap) (o : obj) : value * heap := (VRef (length h), (h ++ [o])%list).

(** streamlit_app.py:397-433 [mapper_cover_input_section], and 450-496, the same
    branches in [mapper_clustering_cover]. *)
Definition make_cover (c : cover_controls) (h : heap) : res (value * heap) :=
  if String.eqb (cc_type c) "Trivial" then Ok (VNone, h)
  else if String.eqb (cc_type c) "Ball" then
    do o <- construct library 3 [("radius", VData (cc_radius c)); ("metric", VStr (cc_metric c))];
    Ok (alloc h o)
  else if String.eqb (cc_type c) "Cubical" then
    let p := if cc_set_overlap c then VData (cc_overlap c) else VNone in
    do o <- construct library 7 [("n_intervals", VInt (cc_intervals c)); ("overlap_frac", p)];
    Ok (alloc h o)
  else if String.eqb (cc_type c) "KNN" then
    do o <- construct library 4 [("neighbors", VInt (cc_neighbors c))];
    Ok (alloc h o)
  else Ok (VNone, h).

(** streamlit_app.py:436-630 [mapper_clustering_input_section] and the functions it
    calls. The classes of scikit-learn are numbered from 10; their objects are
    given by the arguments the app passes. *)
Definition make_clustering (c : clustering_controls) (h : heap) : res (value * heap) :=
  if String.eqb (lc_type c) "Trivial" then Ok (VNone, h)
  else if String.eqb (lc_type c) "Cover" then
    do r <- make_cover (lc_cover c) h;
    do o <- construct library 8 [("cover", fst r); ("n_jobs", VInt (-2))];
    Ok (alloc (snd r) o)
  else if String.eqb (lc_type c) "Agglomerative" then
    Ok (alloc h (mkobj 11 [("n_clusters", VInt (lc_agglomerative_clusters c)); ("linkage", VStr (lc_linkage c));
                           ("metric", VStr (lc_agglomerative_metric c))]))
  else if String.eqb (lc_type c) "KMeans" then
    Ok (alloc h (mkobj 10 [("n_clusters", VInt (lc_kmeans_clusters c)); ("n_init", VStr "auto")]))
  else if String.eqb (lc_type c) "DBSCAN" then
    Ok (alloc h (mkobj 12 [("eps", VData (lc_eps c)); ("min_samples", VInt (lc_min_samples c));
                           ("metric", VStr (lc_dbscan_metric c))]))
  else if String.eqb (lc_type c) "HDBSCAN" then
    Ok (alloc h (mkobj 13 [("min_cluster_size", VInt (lc_min_cluster_size c)); ("metric", VStr (lc_hdbscan_metric c))]))
  else if String.eqb (lc_type c) "Affinity Propagation" then
    Ok (alloc h (mkobj 14 [("damping", VData (lc_damping c)); ("max_iter", VInt (lc_max_iter c))]))
  else Ok (VNone, h).

(** streamlit_app.py:648-659 [mapper_input_section], up to the call of
    [compute_mapper]: the place of the algorithm in the heap. *)
Definition make_algorithm (c : controls) : res (nat * heap) :=
  do cover <- make_cover (co_cover c) [];
  do clustering <- make_clustering (co_clustering c) (snd cover);
  do o <- construct library 9 [("cover", fst cover); ("clustering", fst clustering);
                               ("verbose", VBool false); ("n_jobs", VInt (-2))];
  Ok (length (snd clustering), (snd clustering ++ [o])%list).

(** The values of the controls that were not touched: streamlit_app.py:385-427,
    437-491, 500-504, 511-530, 535-549, 554-579, 587-597, 603-616. The floats 100.0,
    0.25 and 0.5 are numbered 4, 5 and 6. *)
Definition default_cover : cover_controls := mkcc "Cubical" 4 "euclidean" 10 false 5 10.
Definition default_clustering : clustering_controls :=
  mklc "Trivial" default_cover 2 2 "single" "euclidean" 6 5 "euclidean" 5 "euclidean" 6 200.
Definition default_controls : controls := mkcontrols default_cover default_clustering.

Section Text.
Variable repr_atom : value -> string.
Variable repr_foreign : obj -> string.
(** streamlit_app.py:634: the text by which [compute_mapper] knows its algorithm. *)
Definition algorithm_text (lim : nat) (c : controls) : res string :=
  do r <- make_algorithm c;
  repr library library_name repr_atom repr_foreign lim (snd r) (VRef (fst r)).
End Text.
