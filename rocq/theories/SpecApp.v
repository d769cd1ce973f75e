(** What the properties of the web application mean, independently of its model. *)
From Coq Require Import String Reals.
From Verif Require Import Base ModelArith ModelCore ModelDraw ModelApp.
Open Scope nat_scope.

(** *** Data preparation, on extended reals *)
Definition xnan (x : xr) : bool := match x with XNan => true | _ => false end.
(** The known entries of a column. *)
Fixpoint known (l : list xr) : list R :=
  match l with
  | [] => []
  | XFin r :: l => r :: known l
  | _ :: l => known l
  end.
Definition finite (l : list xr) : Prop := forall x, In x l -> x = XNan \/ exists r, x = XFin r.
Definition average (rs : list R) : R := (fold_right Rplus 0 rs / INR (length rs))%R.

(** [l'] is [l] without the columns that are not numeric or have no known entry,
    and with the gaps of the others filled with the average. *)
Definition filled (l l' : list xr) : Prop :=
  Forall2 (fun x x' => (x <> XNan /\ x' = x) \/ (x = XNan /\ x' = XFin (average (known l)))) l l'.
Inductive fixed : list (string * column_data XA) -> list (string * column_data XA) -> Prop :=
| fixed_nil : fixed [] []
| fixed_other name cs cs' : fixed cs cs' -> fixed ((name, COther) :: cs) cs'
| fixed_void name l cs cs' : known l = [] -> fixed cs cs' -> fixed ((name, CNum (A := XA) l) :: cs) cs'
| fixed_kept name l l' cs cs' : known l <> [] -> filled l l' -> fixed cs cs' ->
    fixed ((name, CNum (A := XA) l) :: cs) ((name, CNum (A := XA) l') :: cs').

(** *** Settings *)
(** [int(x)]; raises OverflowError or ValueError otherwise, here both as ValueError. *)
Definition xtrunc (x : xr) : res Z :=
  match x with
  | XFin r => Ok (if Rle_dec 0 r then Int_part r else (- Int_part (- r))%Z)
  | _ => Err ValueError
  end.
Definition shows_int (v : option xr) (z : Z) : Prop := v = Some (XFin (IZR z)).
Definition shows_num (v : option xr) (x : xr) : Prop := v = Some x.
Definition shows_list (v : option (list string)) (l : list string) : Prop := v = Some l \/ (v = None /\ l = []).
(** The configuration holds what the controls show. *)
Record agrees (c : controls XA) (g : config XA) : Prop := mkagrees {
  ag_excluded : shows_list (v_excluded c) (excluded_columns g);
  ag_lens : v_lens_type c = Some (lens_type g);
  ag_cover_scale : v_cover_scale c = cover_scale_data g;
  ag_cover : v_cover_type c = Some (cover_type g);
  ag_clustering_scale : v_clustering_scale c = clustering_scale_data g;
  ag_clustering : v_clustering_type c = Some (clustering_type g);
  ag_pca : shows_int (v_pca_n_components c) (lens_pca_n_components g);
  ag_umap : shows_int (v_umap_n_components c) (lens_umap_n_components g);
  ag_intervals : shows_int (v_n_intervals c) (cover_cubical_n_intervals g);
  ag_overlap : shows_num (v_overlap_frac c) (cover_cubical_overlap_frac g);
  ag_radius : shows_num (v_ball_radius c) (cover_ball_radius g);
  ag_neighbors : shows_int (v_knn_neighbors c) (cover_knn_neighbors g);
  ag_kmeans : shows_int (v_kmeans_n_clusters c) (clustering_kmeans_n_clusters g);
  ag_eps : shows_num (v_dbscan_eps c) (clustering_dbscan_eps g);
  ag_samples : shows_int (v_dbscan_min_samples c) (clustering_dbscan_min_samples g);
  ag_agglomerative : shows_int (v_agglomerative_n_clusters c) (clustering_agglomerative_n_clusters g);
  ag_dimensions : v_dimensions c = Some (Z.of_nat (plot_dimensions g));
  ag_iterations : shows_int (v_iterations c) (plot_iterations g);
  ag_seed : shows_int (v_seed c) (plot_seed g) }.

Definition int_controls (c : controls XA) : list (option xr) :=
  [v_pca_n_components c; v_umap_n_components c; v_n_intervals c; v_knn_neighbors c; v_kmeans_n_clusters c;
   v_dbscan_min_samples c; v_agglomerative_n_clusters c; v_iterations c; v_seed c].
Definition num_controls (c : controls XA) : list (option xr) := [v_overlap_frac c; v_ball_radius c; v_dbscan_eps c].
Definition choice_controls (c : controls XA) : list (option string) := [v_lens_type c; v_cover_type c; v_clustering_type c].
(** Both switches are off, no number is zero or cleared, no choice is cleared, and
    numbers meant to be whole are. *)
Definition usable (c : controls XA) : Prop :=
  v_cover_scale c = false /\ v_clustering_scale c = false /\
  (forall v, In v (int_controls c) -> exists z, z <> 0%Z /\ v = Some (XFin (IZR z))) /\
  (forall v, In v (num_controls c) -> exists x, x <> XFin 0 /\ v = Some x) /\
  (forall v, In v (choice_controls c) -> exists s, s <> ""%string /\ v = Some s) /\
  (v_dimensions c = Some 2%Z \/ v_dimensions c = Some 3%Z).

(** *** Runs *)
Section Runs.
Context {A : arith}.
(** Every column is numeric and has an entry for each row. *)
Definition full_frame (d : frame A) : Prop :=
  forall name c, In (name, c) (fr_cols d) -> exists l, c = CNum l /\ length l = fr_rows d.
(** The rows of [X] are those of the columns. *)
Definition rows_of (cols : list (string * column_data A)) (n : nat) (X : list (list (num A))) : Prop :=
  length X = n /\
  forall i row, nth_error X i = Some row ->
    Forall2 (fun c x => exists l, snd c = CNum l /\ nth_error l i = Some x) cols row.
Definition rectangular (X : list (list (num A))) : Prop := exists w, forall row, In row X -> length row = w.
(** The same lens, cover and clustering with the same parameters, whatever the
    parameters of those not selected. *)
Record same_selection (c c' : config A) : Prop := mksame {
  ss_excluded : excluded_columns c = excluded_columns c';
  ss_lens : lens_type c = lens_type c';
  ss_cover_scale : cover_scale_data c = cover_scale_data c';
  ss_cover : cover_type c = cover_type c';
  ss_clustering_scale : clustering_scale_data c = clustering_scale_data c';
  ss_clustering : clustering_type c = clustering_type c';
  ss_pca : lens_type c = "PCA"%string -> lens_pca_n_components c = lens_pca_n_components c';
  ss_umap : lens_type c = "UMAP"%string -> lens_umap_n_components c = lens_umap_n_components c';
  ss_cubical : cover_type c = "Cubical Cover"%string ->
    cover_cubical_n_intervals c = cover_cubical_n_intervals c' /\ cover_cubical_overlap_frac c = cover_cubical_overlap_frac c';
  ss_ball : cover_type c = "Ball Cover"%string -> cover_ball_radius c = cover_ball_radius c';
  ss_knn : cover_type c = "KNN Cover"%string -> cover_knn_neighbors c = cover_knn_neighbors c';
  ss_kmeans : clustering_type c = "KMeans"%string -> clustering_kmeans_n_clusters c = clustering_kmeans_n_clusters c';
  ss_dbscan : clustering_type c = "DBSCAN"%string ->
    clustering_dbscan_eps c = clustering_dbscan_eps c' /\ clustering_dbscan_min_samples c = clustering_dbscan_min_samples c';
  ss_agglomerative : clustering_type c = "Agglomerative Clustering"%string ->
    clustering_agglomerative_n_clusters c = clustering_agglomerative_n_clusters c' }.
Definition covers : list string := ["Cubical Cover"; "Ball Cover"; "KNN Cover"]%string.
Definition clusterings : list string := ["Skip"; "KMeans"; "DBSCAN"; "Agglomerative Clustering"]%string.
(** [op] turns rectangular data into rectangular data with as many rows. *)
Definition row_wise (op : matrix A -> res (matrix A)) : Prop :=
  forall X y, op X = Ok y -> length y = length X /\ (rectangular X -> rectangular y).
(** The cover and the clustering the configuration asks for. *)
Definition selected (cfg : config A) (cover : cover_spec A) (clustering : clust_spec A) : Prop :=
  ((cover_type cfg = "Cubical Cover"%string /\ cover = UseCubical (cover_cubical_n_intervals cfg) (cover_cubical_overlap_frac cfg)) \/
   (cover_type cfg = "Ball Cover"%string /\ cover = UseBall (cover_ball_radius cfg)) \/
   (cover_type cfg = "KNN Cover"%string /\ cover = UseKNN (cover_knn_neighbors cfg))) /\
  ((clustering_type cfg = "Skip"%string /\ clustering = UseTrivial) \/
   (clustering_type cfg = "KMeans"%string /\ clustering = UseKMeans (clustering_kmeans_n_clusters cfg)) \/
   (clustering_type cfg = "DBSCAN"%string /\ clustering = UseDBSCAN (clustering_dbscan_eps cfg) (clustering_dbscan_min_samples cfg)) \/
   (clustering_type cfg = "Agglomerative Clustering"%string /\ clustering = UseAgglomerative (clustering_agglomerative_n_clusters cfg))).
Definition lens_applied (pca umap : Z -> matrix A -> res (matrix A)) (cfg : config A) (X y : matrix A) : Prop :=
  (lens_type cfg = "Identity"%string /\ y = X) \/
  (lens_type cfg = "PCA"%string /\ pca (lens_pca_n_components cfg) X = Ok y) \/
  (lens_type cfg = "UMAP"%string /\ umap (lens_umap_n_components cfg) X = Ok y) \/
  (~ In (lens_type cfg) ["Identity"; "PCA"; "UMAP"]%string /\ pca 2%Z X = Ok y).
Definition scaled (scaler : matrix A -> res (matrix A)) (on : bool) (X X' : matrix A) : Prop :=
  if on then scaler X = Ok X' else X' = X.
End Runs.

(** *** Events *)
Section Events.
Context {A : arith}.
(** The data and labels brought by an event. *)
Definition brings (digits iris : frame A * frame A) (e : event A) : option (frame A * frame A) :=
  match e with
  | Upload d => Some (d, mkframe 0 [])
  | Load SDigits => Some digits
  | Load SIris => Some iris
  | _ => None
  end.
Definition loads (e : event A) : Prop :=
  match e with Upload _ | Load SDigits | Load SIris => True | _ => False end.
Definition redraws (e : event A) : Prop := match e with Redraw _ => True | _ => False end.
(** The graph and lens values of a drawing are those of a run on its data. *)
Definition goes_together (run : frame A -> config A -> res (option (graph * frame A))) (d : drawing A) : Prop :=
  exists cfg, run (d_X d) cfg = Ok (Some (d_graph d, d_y d)).
(** Of the data brought by the events, the last. *)
Inductive latest (digits iris : frame A * frame A) : list (event A) -> option (frame A * frame A) -> Prop :=
| latest_none : latest digits iris [] None
| latest_new es e d : brings digits iris e = Some d -> latest digits iris (es ++ [e]) (Some d)
| latest_old es e o : brings digits iris e = None -> latest digits iris es o -> latest digits iris (es ++ [e]) o.
(** The data was brought by one of the events (and prepared by [fixd]). *)
Definition was_loaded (fixd : frame A -> frame A) (digits iris : frame A * frame A) (es : list (event A)) (df : frame A) : Prop :=
  exists e d, In e es /\ brings digits iris e = Some d /\ df = fixd (fst d).
(** Both come from one run on data loaded at some time. *)
Definition one_run (fixd : frame A -> frame A) (digits iris : frame A * frame A)
    (run : frame A -> config A -> res (option (graph * frame A))) (es : list (event A)) (g : graph) (y : frame A) : Prop :=
  exists df cfg, was_loaded fixd digits iris es df /\ run df cfg = Ok (Some (g, y)).
(** A drawing of the given data and labels with a graph of that data. *)
Definition current (run : frame A -> config A -> res (option (graph * frame A))) (df labels : frame A) (d : drawing A) : Prop :=
  d_X d = df /\ d_target d = labels /\ goes_together run d.
End Events.
