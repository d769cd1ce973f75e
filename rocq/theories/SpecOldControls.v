(** Specification vocabulary for the algorithms made by the controls of the former app. *)
From Coq Require Import String Reals.
From Verif Require Import Base Dict ModelCore ModelObjects SpecObjects ModelRepr SpecRepr SpecReprText ModelOldControls.
Open Scope nat_scope.
Open Scope list_scope.
Local Open Scope string_scope.

(** What can be chosen. *)
Inductive cover_is : Type :=
| NoCover
| Balls (radius : nat) (metric : string)
| Cubes (intervals : Z) (overlap : option nat)
| Nearest (neighbors : Z).

Inductive clustering_is : Type :=
| NoClustering
| ByCover (c : cover_is)
| Means (clusters : Z)
| Merging (clusters : Z) (linkage metric : string)
| Dense (eps : nat) (min_samples : Z) (metric : string)
| Hierarchical (min_size : Z) (metric : string)
| Affinity (damping : nat) (max_iter : Z).

Inductive chose_cover (c : cover_controls) : cover_is -> Prop :=
| cc_none : cc_type c = "Trivial" -> chose_cover c NoCover
| cc_balls : cc_type c = "Ball" -> chose_cover c (Balls (cc_radius c) (cc_metric c))
| cc_cubes : cc_type c = "Cubical" -> cc_set_overlap c = false -> chose_cover c (Cubes (cc_intervals c) None)
| cc_cubes_overlap : cc_type c = "Cubical" -> cc_set_overlap c = true -> chose_cover c (Cubes (cc_intervals c) (Some (cc_overlap c)))
| cc_nearest : cc_type c = "KNN" -> chose_cover c (Nearest (cc_neighbors c)).

Inductive chose_clustering (c : clustering_controls) : clustering_is -> Prop :=
| lc_none : lc_type c = "Trivial" -> chose_clustering c NoClustering
| lc_by_cover k : lc_type c = "Cover" -> chose_cover (lc_cover c) k -> chose_clustering c (ByCover k)
| lc_means : lc_type c = "KMeans" -> chose_clustering c (Means (lc_kmeans_clusters c))
| lc_merging : lc_type c = "Agglomerative" ->
    chose_clustering c (Merging (lc_agglomerative_clusters c) (lc_linkage c) (lc_agglomerative_metric c))
| lc_dense : lc_type c = "DBSCAN" -> chose_clustering c (Dense (lc_eps c) (lc_min_samples c) (lc_dbscan_metric c))
| lc_hierarchical : lc_type c = "HDBSCAN" -> chose_clustering c (Hierarchical (lc_min_cluster_size c) (lc_hdbscan_metric c))
| lc_affinity : lc_type c = "Affinity Propagation" -> chose_clustering c (Affinity (lc_damping c) (lc_max_iter c)).

(** The options of the select boxes. *)
Definition covers : list string := ["Trivial"; "Ball"; "Cubical"; "KNN"].
Definition metrics : list string := ["euclidean"; "chebyshev"; "manhattan"; "cosine"].
Definition linkages : list string := ["ward"; "complete"; "average"; "single"].
Definition clusterings : list string :=
  ["Trivial"; "Cover"; "KMeans"; "Agglomerative"; "DBSCAN"; "HDBSCAN"; "Affinity Propagation"].
Definition offered_cover (c : cover_controls) : Prop := In (cc_type c) covers /\ In (cc_metric c) metrics.
Definition offered_clustering (c : clustering_controls) : Prop :=
  In (lc_type c) clusterings /\ offered_cover (lc_cover c) /\ In (lc_linkage c) linkages /\
  In (lc_agglomerative_metric c) metrics /\ In (lc_dbscan_metric c) metrics /\ In (lc_hdbscan_metric c) metrics.
Definition offered (c : controls) : Prop := offered_cover (co_cover c) /\ offered_clustering (co_clustering c).

(** The objects that are meant: their class and all their parameters. *)
Definition cover_made (h : heap) (v : value) (c : cover_is) : Prop :=
  match c with
  | NoCover => v = VNone
  | Balls r m => exists l, v = VRef l /\ nth_error h l =
      Some (mkobj 3 [("radius", VData r); ("metric", VStr m); ("metric_params", VNone); ("kind", VStr "flat");
                     ("leaf_capacity", VInt 1); ("leaf_radius", VNone); ("pivoting", VStr "disabled")])
  | Cubes n p => exists l, v = VRef l /\ nth_error h l =
      Some (mkobj 7 [("n_intervals", VInt n); ("overlap_frac", match p with Some p => VData p | None => VNone end);
                     ("algorithm", VStr "proximity"); ("kind", VStr "flat");
                     ("leaf_capacity", VInt 1); ("leaf_radius", VNone); ("pivoting", VStr "disabled")])
  | Nearest k => exists l, v = VRef l /\ nth_error h l =
      Some (mkobj 4 [("neighbors", VInt k); ("metric", VStr "euclidean"); ("metric_params", VNone); ("kind", VStr "flat");
                     ("leaf_capacity", VNone); ("leaf_radius", VData 0); ("pivoting", VStr "disabled")])
  end.
(** The arguments of the algorithms of scikit-learn. *)
Definition sklearn_made (c : clustering_is) : option obj :=
  match c with
  | NoClustering | ByCover _ => None
  | Means n => Some (mkobj 10 [("n_clusters", VInt n); ("n_init", VStr "auto")])
  | Merging n l m => Some (mkobj 11 [("n_clusters", VInt n); ("linkage", VStr l); ("metric", VStr m)])
  | Dense e n m => Some (mkobj 12 [("eps", VData e); ("min_samples", VInt n); ("metric", VStr m)])
  | Hierarchical n m => Some (mkobj 13 [("min_cluster_size", VInt n); ("metric", VStr m)])
  | Affinity d n => Some (mkobj 14 [("damping", VData d); ("max_iter", VInt n)])
  end.
Definition clustering_made (h : heap) (v : value) (c : clustering_is) : Prop :=
  match c with
  | NoClustering => v = VNone
  | ByCover k => exists l w, v = VRef l /\ cover_made h w k /\
      nth_error h l = Some (mkobj 8 [("cover", w); ("clustering", VNone); ("n_jobs", VInt (-2))])
  | _ => exists l, v = VRef l /\ nth_error h l = sklearn_made c
  end.
Definition algorithm_made (h : heap) (l : nat) (k : cover_is) (c : clustering_is) : Prop :=
  exists v w, cover_made h v k /\ clustering_made h w c /\
    nth_error h l = Some (mkobj 9 [("cover", v); ("clustering", w); ("failsafe", VBool true);
                                   ("verbose", VBool false); ("n_jobs", VInt (-2))]).

(** The texts of the settings: different values have different texts, and the text
    of a setting, or of an algorithm of scikit-learn, is one item, not the
    construction of an object of the library, and an algorithm does not look like
    [None]. *)
Definition is_setting (v : value) : Prop :=
  match v with
  | VNone | VBool _ | VInt _ | VData _ => True
  | VStr s => simple_name s
  | _ => False
  end.
Section Texts.
Variable repr_atom : value -> string.
Variable repr_foreign : obj -> string.
Definition settings_tell : Prop :=
  (forall v, is_setting v -> plain_text library library_name (repr_atom v)) /\
  (forall v v', is_setting v -> is_setting v' -> repr_atom v = repr_atom v' -> v = v').
(** For clusterings with offered names. *)
Definition named (c : clustering_is) : Prop :=
  match c with
  | Merging _ l m => simple_name l /\ simple_name m
  | Dense _ _ m | Hierarchical _ m => simple_name m
  | _ => True
  end.
Definition clusterings_tell : Prop :=
  (forall c o, named c -> sklearn_made c = Some o -> plain_text library library_name (repr_foreign o)) /\
  (forall c c' o o', named c -> named c' -> sklearn_made c = Some o -> sklearn_made c' = Some o' ->
     repr_foreign o = repr_foreign o' -> o = o') /\
  (forall c o, named c -> sklearn_made c = Some o -> repr_foreign o <> repr_atom VNone).
End Texts.
