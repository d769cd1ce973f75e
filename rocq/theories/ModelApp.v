(** Model of src/tdamapper/app.py, the web application: data preparation, the
    settings, a run, the figure, and the events of one browser page.

    Notifications are in ModelNotify. Not modelled: the page's appearance, logging, reading CSV files,
    and the third-party estimators (PCA, UMAP, scaler, clusterings), which are
    arbitrary functions here. Row labels of data frames are 0, 1, 2, ..., as
    [read_csv] and the example datasets make them. *)
From Coq Require Import String DecimalString.
From Verif Require Import Base Dict ModelArith ModelCore ModelDraw ModelPlotly.
Open Scope nat_scope.

Section App.
Variable A : arith.
Notation num := (num A).
(** [isna]: not a number. *)
Variable missing : num -> bool.
Variable nan : num.
(** [int(x)] of a float: towards zero; raises on infinities and not-a-number. *)
Variable trunc : num -> res Z.

(** *** Data frames *)
(** A column of numbers, or of anything else ([bool], text, dates). *)
Inductive column_data : Type := CNum (l : list num) | COther.
Record frame : Type := mkframe { fr_rows : nat; fr_cols : list (string * column_data) }.
Definition no_frame : frame := mkframe 0 [].
(** [df.empty]. *)
Definition is_empty (d : frame) : bool :=
  (fr_rows d =? 0) || match fr_cols d with [] => true | _ => false end.
Definition is_numeric (c : column_data) : bool := match c with CNum _ => true | COther => false end.
Definition has_value (c : column_data) : bool :=
  match c with CNum l => existsb (fun x => negb (missing x)) l | COther => true end.
(** [df.mean()] of one column: missing entries are skipped. *)
Definition present (l : list num) : list num := filter (fun x => negb (missing x)) l.
Definition sum (l : list num) : num := fold_left (add A) l (zero A).
Definition mean_of (l : list num) : num :=
  match present l with [] => nan | p => div A (sum p) (ofz A (Z.of_nat (length p))) end.
Definition col_mean (c : column_data) : num := match c with CNum l => mean_of l | COther => nan end.
Definition fill (v : num) (c : column_data) : column_data :=
  match c with CNum l => CNum (map (fun x => if missing x then v else x) l) | COther => COther end.
(** [df.fillna(values)] with one value per column name, one name after the other. *)
Definition fill_named (cols : list (string * column_data)) (p : string * num) : list (string * column_data) :=
  map (fun c => if String.eqb (fst c) (fst p) then (fst c, fill (snd p) (snd c)) else c) cols.

(** app.py:144-157 [fix_data]. *)
Definition fix_data (d : frame) : frame :=
  let numeric := filter (fun c => is_numeric (snd c)) (fr_cols d) in
  let kept := filter (fun c => has_value (snd c)) numeric in
  let means := map (fun c => (fst c, col_mean (snd c))) kept in
  mkframe (fr_rows d) (fold_left fill_named means kept).

(** [df.to_numpy()]: rows; entries beyond the end of a column and those of other
    columns are missing. *)
Definition cell (i : nat) (c : column_data) : num := match c with CNum l => nth i l nan | COther => nan end.
Definition to_numpy (d : frame) : list (list num) :=
  map (fun i => map (fun c => cell i (snd c)) (fr_cols d)) (seq 0 (fr_rows d)).
(** [df.drop(columns=names, errors="ignore")]. *)
Definition drop (names : list string) (d : frame) : frame :=
  mkframe (fr_rows d) (filter (fun c => negb (existsb (String.eqb (fst c)) names)) (fr_cols d)).
(** [pd.concat(frames, axis=1)]: columns side by side, short ones padded. *)
Definition pad (n : nat) (c : column_data) : column_data :=
  match c with CNum l => CNum (l ++ repeat nan (n - length l)) | COther => COther end.
Definition concat_cols (ds : list frame) : frame :=
  let n := fold_right Nat.max 0 (map fr_rows ds) in
  mkframe n (concat (map (fun d => map (fun c => (fst c, pad n (snd c))) (fr_cols d)) ds)).

(** *** Settings *)
(** app.py:94-141 [MapperConfig]. [asdict] followed by [MapperConfig( ** params)] gives
    an equal one. *)
Record config : Type := mkconfig {
  excluded_columns : list string;
  lens_type : string;
  cover_scale_data : bool;
  cover_type : string;
  clustering_scale_data : bool;
  clustering_type : string;
  lens_pca_n_components : Z;
  lens_umap_n_components : Z;
  cover_cubical_n_intervals : Z;
  cover_cubical_overlap_frac : num;
  cover_ball_radius : num;
  cover_knn_neighbors : Z;
  clustering_kmeans_n_clusters : Z;
  clustering_dbscan_eps : num;
  clustering_dbscan_min_samples : Z;
  clustering_agglomerative_n_clusters : Z;
  plot_dimensions : nat;
  plot_iterations : Z;
  plot_seed : Z }.

(** The [value]s of the controls on the page (app.py:493-715); [None] when cleared.
    A choice among fixed options is [None] or one of them. *)
Record controls : Type := mkcontrols {
  v_excluded : option (list string);
  v_lens_type : option string;
  v_cover_scale : bool;
  v_cover_type : option string;
  v_clustering_scale : bool;
  v_clustering_type : option string;
  v_pca_n_components : option num;
  v_umap_n_components : option num;
  v_n_intervals : option num;
  v_overlap_frac : option num;
  v_ball_radius : option num;
  v_knn_neighbors : option num;
  v_kmeans_n_clusters : option num;
  v_dbscan_eps : option num;
  v_dbscan_min_samples : option num;
  v_agglomerative_n_clusters : option num;
  v_dimensions : option Z;
  v_iterations : option num;
  v_seed : option num }.

(** [e.value if e.value else default]: [None], zero and the empty text are false. *)
Definition num_or (v : option num) (default : num) : num :=
  match v with Some x => if eq_b A x (zero A) then default else x | None => default end.
Definition int_or (v : option num) (default : Z) : res Z :=
  match v with Some x => if eq_b A x (zero A) then Ok default else trunc x | None => Ok default end.
Definition str_or (v : option string) (default : string) : string :=
  match v with Some s => if String.eqb s "" then default else s | None => default end.
Definition list_or (v : option (list string)) : list string := match v with Some l => l | None => [] end.
Definition quarter : num := div A (ofz A 1) (ofz A 4).
Definition half : num := div A (ofz A 1) (ofz A 2).
Definition eighth : num := div A (ofz A 1) (ofz A 8).

(** app.py:735-821 [get_mapper_config]. *)
Definition get_mapper_config (c : controls) : res config :=
  do dim <- (match v_dimensions c with Some z => Ok z | None => Err TypeError end);
  let dims := if (dim =? 2)%Z then 2 else if (dim =? 3)%Z then 3 else 2 in
  do pca <- int_or (v_pca_n_components c) 2;
  do umap <- int_or (v_umap_n_components c) 2;
  do intervals <- int_or (v_n_intervals c) 10;
  do neighbors <- int_or (v_knn_neighbors c) 10;
  do kmeans <- int_or (v_kmeans_n_clusters c) 2;
  do min_samples <- int_or (v_dbscan_min_samples c) 5;
  do agglomerative <- int_or (v_agglomerative_n_clusters c) 2;
  do iterations <- int_or (v_iterations c) 100;
  do seed <- int_or (v_seed c) 42;
  Ok {| excluded_columns := list_or (v_excluded c);
        lens_type := str_or (v_lens_type c) "PCA";
        cover_scale_data := false;
        cover_type := str_or (v_cover_type c) "Cubical Cover";
        clustering_scale_data := false;
        clustering_type := str_or (v_clustering_type c) "Skip";
        lens_pca_n_components := pca;
        lens_umap_n_components := umap;
        cover_cubical_n_intervals := intervals;
        cover_cubical_overlap_frac := num_or (v_overlap_frac c) quarter;
        cover_ball_radius := num_or (v_ball_radius c) (ofz A 100);
        cover_knn_neighbors := neighbors;
        clustering_kmeans_n_clusters := kmeans;
        clustering_dbscan_eps := num_or (v_dbscan_eps c) half;
        clustering_dbscan_min_samples := min_samples;
        clustering_agglomerative_n_clusters := agglomerative;
        plot_dimensions := dims;
        plot_iterations := iterations;
        plot_seed := seed |}.

(** *** A run *)
Definition matrix : Type := list (list num).
Inductive cover_spec : Type := UseCubical (n_intervals : Z) (overlap_frac : num) | UseBall (radius : num) | UseKNN (neighbors : Z).
Inductive clust_spec : Type :=
| UseTrivial | UseKMeans (n_clusters : Z) | UseDBSCAN (eps : num) (min_samples : Z) | UseAgglomerative (n_clusters : Z).
(** [PCA(n, random_state=42).fit_transform(X)], the same for UMAP,
    [StandardScaler().fit_transform(X)], and
    [MapperAlgorithm(cover=.., clustering=..).fit_transform(X, y)]. *)
Variables pca umap : Z -> matrix -> res matrix.
Variable scaler : matrix -> res matrix.
Variable mapper_fit : cover_spec -> clust_spec -> matrix -> matrix -> res graph.

Definition str_nat (n : nat) : string := NilZero.string_of_uint (Nat.to_uint n).
(** [y.shape[1]]. *)
Definition width (y : matrix) : nat := match y with r :: _ => length r | [] => 0 end.
Definition transpose_col (y : matrix) (i : nat) : list num := map (fun r => nth i r nan) y.
(** app.py:296 [pd.DataFrame(y, columns=...)]. *)
Definition lens_frame (lens : string) (y : matrix) : frame :=
  mkframe (length y) (map (fun i => ((lens ++ " " ++ str_nat i)%string, CNum (transpose_col y i))) (seq 0 (width y))).

Definition the_lens (cfg : config) : matrix -> res matrix :=
  if String.eqb (lens_type cfg) "Identity" then (fun X => Ok X)
  else if String.eqb (lens_type cfg) "PCA" then pca (lens_pca_n_components cfg)
  else if String.eqb (lens_type cfg) "UMAP" then umap (lens_umap_n_components cfg)
  else pca 2.
Definition the_cover (cfg : config) : option cover_spec :=
  if String.eqb (cover_type cfg) "Cubical Cover" then
    Some (UseCubical (cover_cubical_n_intervals cfg) (cover_cubical_overlap_frac cfg))
  else if String.eqb (cover_type cfg) "Ball Cover" then Some (UseBall (cover_ball_radius cfg))
  else if String.eqb (cover_type cfg) "KNN Cover" then Some (UseKNN (cover_knn_neighbors cfg))
  else None.
Definition the_clustering (cfg : config) : option clust_spec :=
  if String.eqb (clustering_type cfg) "Skip" then Some UseTrivial
  else if String.eqb (clustering_type cfg) "KMeans" then Some (UseKMeans (clustering_kmeans_n_clusters cfg))
  else if String.eqb (clustering_type cfg) "DBSCAN" then
    Some (UseDBSCAN (clustering_dbscan_eps cfg) (clustering_dbscan_min_samples cfg))
  else if String.eqb (clustering_type cfg) "Agglomerative Clustering" then
    Some (UseAgglomerative (clustering_agglomerative_n_clusters cfg))
  else None.

(** app.py:206-303 [run_mapper]. *)
Definition run_mapper (df : frame) (cfg : config) : res (option (graph * frame)) :=
  if is_empty df then Ok None
  else match the_cover cfg with
  | None => Ok None
  | Some cover =>
      match the_clustering cfg with
      | None => Ok None
      | Some clustering =>
          let X := to_numpy (match excluded_columns cfg with [] => df | names => drop names df end) in
          do y <- the_lens cfg X;
          let df_y := lens_frame (lens_type cfg) y in
          do y <- (if cover_scale_data cfg then scaler y else Ok y);
          do X <- (if clustering_scale_data cfg then scaler X else Ok X);
          do g <- mapper_fit cover clustering X y;
          Ok (Some (g, df_y))
      end
  end.

(** *** The figure *)
Variable CS : Type.
Variable get_colorscale : string -> res CS.
Variable plotly_cmap : string -> option string.
Variable str_num : num -> string.
(** The igraph layout, for a number of iterations and a seed. *)
Variable layout_of : Z -> Z -> nat -> graph -> list (list num).

(** [np.nanmean]: with nothing but missing entries it warns and gives [nan]. *)
Definition nanmean (l : list num) : res num := Ok (mean_of l).

(** app.py:306-356 [create_mapper_figure]. *)
Definition figure_colors (df_X df_y df_target : frame) : colors2 A :=
  let d := concat_cols [df_target; df_y; df_X] in
  mkcolors (to_numpy d) (length (fr_cols d)).
Definition figure_titles (df_X df_y df_target : frame) : list string :=
  map fst (fr_cols (concat_cols [df_target; df_y; df_X])).
Definition figure_sizes : list num := map (fun i => mul A (mul A (ofz A (Z.of_nat i)) eighth) (ofz A 1)) (seq 0 17).
Definition figure_layout : attrs A CS :=
  [("width", ANone); ("height", ANone); ("autosize", ABool true); ("xaxis.scaleanchor", AStr "y"); ("uirevision", AStr "constant")]%string.
Definition create_mapper_figure (df_X df_y df_target : frame) (g : graph) (cfg : config) : res (figure A CS) :=
  do m <- make_plot A (layout_of (plot_iterations cfg) (plot_seed cfg)) (fun _ _ => []) g (plot_dimensions cfg) "igraph";
  do f <- plot_plotly A CS get_colorscale plotly_cmap str_num m
            (CA2 (figure_colors df_X df_y df_target)) (NSList figure_sizes) (TList (figure_titles df_X df_y df_target))
            nanmean (CMList ["Viridis"; "Cividis"; "Jet"; "Plasma"; "RdBu"]%string) None (Some 800%Z);
  Ok (update_layout figure_layout f).

(** *** The page *)
(** [self.storage], the runs and drawings still being computed, and what the draw
    area shows: the arguments its figure was made from. *)
Record drawing : Type := mkdrawing { d_X : frame; d_y : frame; d_target : frame; d_graph : graph; d_config : config }.
Record page : Type := mkpage {
  p_df : option frame;
  p_labels : option frame;
  p_y : option frame;
  p_graph : option graph;
  p_runs : list (frame * config);
  p_drawings : list drawing;
  p_shown : option drawing }.
Definition new_page : page := mkpage None None None None [] [] None.
Definition get_frame (o : option frame) : frame := match o with Some d => d | None => no_frame end.

(** The example datasets, features and labels. *)
Variables digits iris : frame * frame.
Inductive source : Type := SDigits | SIris | SCsv | SUnknown.

(** What can happen between two points where the event loop runs: a click or an
    upload is handled up to its first [await], a computation comes back and its
    handler goes on up to the next one. Computations may come back in any order.
    [Run] and [Redraw] come with the controls' values at that time. *)
Inductive event : Type :=
| Upload (content : frame)
| Load (s : source)
| Run (c : controls)
| RunDone (k : nat) (c : controls)
| Redraw (c : controls)
| DrawDone (k : nat).

Definition remove_nth {X : Type} (k : nat) (l : list X) : list X := firstn k l ++ skipn (S k) l.
Definition set_data (d labels : frame) (p : page) : page :=
  mkpage (Some d) (Some labels) (p_y p) (p_graph p) (p_runs p) (p_drawings p) (p_shown p).
Definition load_example (e : frame * frame) (p : page) : page := set_data (fix_data (fst e)) (fix_data (snd e)) p.

(** app.py:960-989 [async_draw_mapper] up to the [await]. *)
Definition start_draw (c : controls) (p : page) : page :=
  match get_mapper_config c with
  | Err _ => p
  | Ok cfg =>
      match is_empty (get_frame (p_df p)), p_graph p with
      | false, Some g =>
          mkpage (p_df p) (p_labels p) (p_y p) (p_graph p) (p_runs p)
            (p_drawings p ++ [mkdrawing (get_frame (p_df p)) (get_frame (p_y p)) (get_frame (p_labels p)) g cfg]) (p_shown p)
      | _, _ => p
      end
  end.

Definition step (e : event) (p : page) : page :=
  match e with
  (* app.py:823-841 [upload_file] *)
  | Upload content => set_data (fix_data content) no_frame p
  (* app.py:843-887 [load_data] *)
  | Load SDigits => load_example digits p
  | Load SIris => load_example iris p
  | Load SCsv | Load SUnknown => p
  (* app.py:920-940 [async_run_mapper] up to the [await] *)
  | Run c =>
      if is_empty (get_frame (p_df p)) then p
      else match get_mapper_config c with
           | Err _ => p
           | Ok cfg => mkpage (p_df p) (p_labels p) (p_y p) (p_graph p) (p_runs p ++ [(get_frame (p_df p), cfg)]) (p_drawings p) (p_shown p)
           end
  (* app.py:940-958 the rest of [async_run_mapper] *)
  | RunDone k c =>
      match nth_error (p_runs p) k with
      | None => p
      | Some (df, cfg) =>
          let p' := mkpage (p_df p) (p_labels p) (p_y p) (p_graph p) (remove_nth k (p_runs p)) (p_drawings p) (p_shown p) in
          match run_mapper df cfg with
          | Ok (Some (g, y)) =>
              start_draw c (mkpage (p_df p') (p_labels p') (Some y) (Some g) (p_runs p') (p_drawings p') (p_shown p'))
          | _ => p'
          end
      end
  | Redraw c => start_draw c p
  (* app.py:989-1010 the rest of [async_draw_mapper] *)
  | DrawDone k =>
      match nth_error (p_drawings p) k with
      | None => p
      | Some d =>
          mkpage (p_df p) (p_labels p) (p_y p) (p_graph p) (p_runs p) (remove_nth k (p_drawings p))
            (match create_mapper_figure (d_X d) (d_y d) (d_target d) (d_graph d) (d_config d) with
             | Ok _ => Some d
             | Err _ => p_shown p
             end)
      end
  end.
Definition steps (es : list event) (p : page) : page := fold_left (fun p e => step e p) es p.
End App.

Arguments CNum {A}.
Arguments COther {A}.
Arguments mkframe {A}.
Arguments fr_rows {A}.
Arguments fr_cols {A}.
Arguments no_frame {A}.
Arguments is_empty {A}.
Arguments excluded_columns {A}.
Arguments lens_type {A}.
Arguments cover_scale_data {A}.
Arguments cover_type {A}.
Arguments clustering_scale_data {A}.
Arguments clustering_type {A}.
Arguments lens_pca_n_components {A}.
Arguments lens_umap_n_components {A}.
Arguments cover_cubical_n_intervals {A}.
Arguments cover_cubical_overlap_frac {A}.
Arguments cover_ball_radius {A}.
Arguments cover_knn_neighbors {A}.
Arguments clustering_kmeans_n_clusters {A}.
Arguments clustering_dbscan_eps {A}.
Arguments clustering_dbscan_min_samples {A}.
Arguments clustering_agglomerative_n_clusters {A}.
Arguments plot_dimensions {A}.
Arguments plot_iterations {A}.
Arguments plot_seed {A}.
Arguments mkcontrols {A}.
Arguments v_excluded {A}.
Arguments v_lens_type {A}.
Arguments v_cover_scale {A}.
Arguments v_cover_type {A}.
Arguments v_clustering_scale {A}.
Arguments v_clustering_type {A}.
Arguments v_pca_n_components {A}.
Arguments v_umap_n_components {A}.
Arguments v_n_intervals {A}.
Arguments v_overlap_frac {A}.
Arguments v_ball_radius {A}.
Arguments v_knn_neighbors {A}.
Arguments v_kmeans_n_clusters {A}.
Arguments v_dbscan_eps {A}.
Arguments v_dbscan_min_samples {A}.
Arguments v_agglomerative_n_clusters {A}.
Arguments v_dimensions {A}.
Arguments v_iterations {A}.
Arguments v_seed {A}.
Arguments UseCubical {A}.
Arguments UseBall {A}.
Arguments UseKNN {A}.
Arguments UseTrivial {A}.
Arguments UseKMeans {A}.
Arguments UseDBSCAN {A}.
Arguments UseAgglomerative {A}.
Arguments mkdrawing {A}.
Arguments d_X {A}.
Arguments d_y {A}.
Arguments d_target {A}.
Arguments d_graph {A}.
Arguments d_config {A}.
Arguments mkpage {A}.
Arguments p_df {A}.
Arguments p_labels {A}.
Arguments p_y {A}.
Arguments p_graph {A}.
Arguments p_runs {A}.
Arguments p_drawings {A}.
Arguments p_shown {A}.
Arguments new_page {A}.
Arguments Upload {A}.
Arguments Load {A}.
Arguments Run {A}.
Arguments RunDone {A}.
Arguments Redraw {A}.
Arguments DrawDone {A}.
