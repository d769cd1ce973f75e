(** The former web application, app/streamlit_app.py. Streamlit runs [main] again whenever a control
    changes; what is kept between the runs are the caches of the functions decorated with
    [st.cache_data]. (At the pinned commit the file only calls [redirect], which shows a notice.) *)
From Coq Require Import String Ascii.
From Verif Require Import Base Dict ModelArith ModelCore ModelDraw ModelPlotly ModelApp ModelEntry.
Open Scope string_scope. Open Scope list_scope. Open Scope nat_scope.

(** *** Caches *)
(** [st.cache_data]: the value stored for the same key if there is one; otherwise the function is called
    and its value stored, unless it raises. At most [max_entries] are kept. Keys are compared by
    value, Streamlit compares hashes. *)
Section Cache.
Context {K V : Type}.
Variable eq_key : forall a b : K, {a = b} + {a <> b}.
Definition cache : Type := list (K * V).
Fixpoint stored (c : cache) (k : K) : option V :=
  match c with [] => None | (k', v) :: r => if eq_key k k' then Some v else stored r k end.
Definition cached (max_entries : option nat) (k : K) (value : res V) (c : cache) : cache * res V :=
  match stored c k with
  | Some v => (c, Ok v)
  | None => match value with
            | Ok v => (match max_entries with Some n => firstn n ((k, v) :: c) | None => (k, v) :: c end, Ok v)
            | Err e => (c, Err e)
            end
  end.
End Cache.
Arguments cache : clear implicits.

(** *** Limits *)
(** streamlit_app.py:33-41. [bool] of a text is true unless it is empty. *)
Record limits : Type := mklimits { l_enabled : bool; l_samples : Z; l_features : Z; l_nodes : Z; l_edges : Z }.
Definition env_int (env : environment) (name : string) (default : Z) : res Z :=
  match env name with Some s => py_int s | None => Ok default end.
Definition read_limits (env : environment) : res limits :=
  let enabled := match env "LIMITS_ENABLED" with Some s => negb (String.eqb s "") | None => false end in
  do samples <- env_int env "LIMITS_NUM_SAMPLES" 10000;
  do features <- env_int env "LIMITS_NUM_FEATURES" 1000;
  do nodes <- env_int env "LIMITS_NUM_NODES" 2000;
  do edges <- env_int env "LIMITS_NUM_EDGES" 3000;
  Ok (mklimits enabled samples features nodes edges).

(** streamlit_app.py:172-187 [_check_limits_mapper_graph]. *)
Definition check_graph (l : limits) (g : graph) : res unit :=
  if l_enabled l then
    if (l_nodes l <? Z.of_nat (length (nodes g)))%Z then Err ValueError
    else if (l_edges l <? Z.of_nat (length (edges g)))%Z then Err ValueError
    else Ok tt
  else Ok tt.

(** *** Keys of graphs *)
(** [sorted(l)] for a total order. *)
Fixpoint put {T : Type} (le : T -> T -> bool) (x : T) (l : list T) : list T :=
  match l with [] => [x] | y :: r => if le x y then x :: l else y :: put le x r end.
Definition py_sorted {T : Type} (le : T -> T -> bool) (l : list T) : list T := fold_right (put le) [] l.
Definition pair_le (e f : Z * Z) : bool := (fst e <? fst f)%Z || ((fst e =? fst f)%Z && (snd e <=? snd f)%Z).
Definition sort_pair (e : Z * Z) : Z * Z := if (fst e <=? snd e)%Z then e else (snd e, fst e).
(** streamlit_app.py:215-225 [_get_graph_no_attribs], [_encode_graph], and 694-695
    [_hash_networkx_graph]. *)
Definition graph_key : Type := list Z * list (Z * Z).
Definition encode_graph (g : graph) : graph_key :=
  (py_sorted Z.leb (nodes g), py_sorted pair_le (map sort_pair (edges g))).

Section OldApp.
Variable A : arith.
Notation num := (num A).
Notation frame := (frame A).
Notation matrix := (matrix A).
Variable missing : num -> bool.
Variable nan : num.
Variable num_dec : forall a b : num, {a = b} + {a <> b}.
Variable lim : limits.

(** streamlit_app.py:190-205 [_check_limits_dataset]. *)
Definition check_data (df_X df_y : frame) : res unit :=
  if l_enabled lim then
    if (l_samples lim <? Z.of_nat (fr_rows df_X))%Z then Err ValueError
    else if (l_features lim <? Z.of_nat (length (fr_cols df_X) + length (fr_cols df_y)))%Z then Err ValueError
    else Ok tt
  else Ok tt.

(** *** Data *)
(** What is selected in streamlit_app.py:309-328 [data_input_section]; a file is known by its identity. *)
Inductive source : Type := Example_ (name : string) | OpenML (name : string) | Csv (file : option Z).
Definition source_dec : forall a b : source, {a = b} + {a <> b}.
Proof. decide equality; [apply string_dec|apply string_dec|decide equality; apply Z.eq_dec]. Defined.
Variables digits iris : frame * frame.
Variable fetch_openml : string -> res (frame * frame).
Variable read_csv : Z -> res frame.
(** streamlit_app.py:283-306 [load_data]; 208-213 [_fix_data] does the same as app.py's. *)
Definition load_data (s : source) : res (frame * frame) :=
  do d <- (match s with
           | Example_ name => Ok (if String.eqb name "Digits" then digits else if String.eqb name "Iris" then iris else (no_frame, no_frame))
           | OpenML name => fetch_openml name
           | Csv None => Err ValueError
           | Csv (Some f) => do X <- read_csv f; Ok (X, no_frame)
           end);
  let df_X := fix_data A missing nan (fst d) in
  let df_y := fix_data A missing nan (snd d) in
  do _ <- check_data df_X df_y;
  Ok (df_X, df_y).

(** *** Lens *)
(** streamlit_app.py:331-380 [mapper_lens_input_section]. *)
Inductive lens_choice : Type := LensIdentity | LensPca (n : nat) (seed : Z) | LensUmap (n : nat) (seed : Z).
Variables pca umap : nat -> Z -> matrix -> res matrix.
Definition lens_values (c : lens_choice) (df : frame) : res matrix :=
  let X := to_numpy A nan df in
  let n_feats := length (fr_cols df) in
  match c with
  | LensIdentity => Ok X
  | LensPca n seed => if n_feats <? n then Ok X else pca n seed X
  | LensUmap n seed => if n_feats <? n then Ok X else umap n seed X
  end.

(** *** The graph *)
(** [MapperAlgorithm]s with their cover and clustering. *)
Variable algo : Type.
Variable repr : algo -> string.
Variable fit_transform : algo -> matrix -> matrix -> res graph.
Variable standard_scaler : matrix -> res matrix.
(** streamlit_app.py:633-645 [compute_mapper], and its key. *)
Definition compute_mapper (a : algo) (X y : matrix) (scale_clustering scale_cover : bool) : res graph :=
  do X <- (if scale_clustering then standard_scaler X else Ok X);
  do y <- (if scale_cover then standard_scaler y else Ok y);
  fit_transform a X y.
Definition mapper_key : Type := string * matrix * matrix * bool * bool.
Definition matrix_dec : forall a b : matrix, {a = b} + {a <> b} := list_eq_dec (list_eq_dec num_dec).
Definition mapper_key_dec : forall a b : mapper_key, {a = b} + {a <> b}.
Proof. repeat decide equality; solve [apply matrix_dec|apply num_dec]. Defined.

(** *** The layout *)
Variable layout_of : Z -> Z -> nat -> graph -> list (list num).
(** streamlit_app.py:698-713 [compute_mapper_plot], and its key. *)
Definition compute_plot (g : graph) (dim : nat) (seed iterations : Z) : res (mapper_plot A) :=
  do _ <- check_graph lim g;
  make_plot A (layout_of iterations seed) (fun _ _ => []) g dim "igraph".
Definition plot_key : Type := graph_key * nat * Z * Z.
Definition plot_key_dec : forall a b : plot_key, {a = b} + {a <> b}.
Proof. repeat decide equality. Defined.

(** *** The figure *)
Variable CS : Type.
Variable get_colorscale : string -> res CS.
Variable plotly_cmap : string -> option string.
Variable str_num : num -> string.
Definition old_sizes : list num :=
  map (fun i => mul A (div A (ofz A 1) (ofz A 4)) (ofz A (Z.of_nat i))) (seq 0 9).
(** streamlit_app.py:743-761 [compute_mapper_fig], and its key (739-740 [_hash_mapper_plot]); [_agg]
    is not part of it. *)
Definition compute_fig (m : mapper_plot A) (colors : frame) (agg : agg_fn A) : res (figure A CS) :=
  plot_plotly A CS get_colorscale plotly_cmap str_num m
    (CA2 (mkcolors (to_numpy A nan colors) (length (fr_cols colors)))) (NSList old_sizes) (TList (map fst (fr_cols colors)))
    agg (CMList ["Jet"; "Viridis"; "Cividis"]) (Some 600%Z) (Some 600%Z).
Definition fig_key : Type := list (Z * list num) * frame * string.
Definition frame_dec : forall a b : frame, {a = b} + {a <> b}.
Proof. repeat decide equality; apply num_dec. Defined.
Definition fig_key_dec : forall a b : fig_key, {a = b} + {a <> b}.
Proof. repeat decide equality; solve [apply frame_dec|apply num_dec]. Defined.
(** streamlit_app.py:774-785, in [mapper_figure_section]. *)
Definition old_layout : attrs A CS :=
  [("margin.b", AInt 5); ("margin.l", AInt 5); ("margin.r", AInt 5); ("margin.t", AInt 5); ("xaxis.showline", ABool false);
   ("yaxis.showline", ABool false); ("yaxis.scaleanchor", AStr "x"); ("yaxis.scaleratio", AInt 1)].

(** *** The data to download *)
(** [pd.concat([a, b])] stacks the rows; a column of only one of them is filled up. *)
Definition col_of (d : frame) (name : string) : column_data A :=
  match find (fun c => String.eqb (fst c) name) (fr_cols d) with Some c => snd c | None => CNum (repeat nan (fr_rows d)) end.
Definition stack_col (a b : column_data A) : column_data A :=
  match a, b with CNum l, CNum l' => CNum (l ++ l') | _, _ => COther end.
Definition stack (a b : frame) : frame :=
  let names := map fst (fr_cols a) ++ filter (fun n => negb (existsb (String.eqb n) (map fst (fr_cols a)))) (map fst (fr_cols b)) in
  mkframe (fr_rows a + fr_rows b) (map (fun n => (n, stack_col (col_of a n) (col_of b n))) names).

(** *** A run *)
(** The controls. *)
Record inputs : Type := mkinputs {
  i_source : source;
  i_lens : lens_choice;
  i_algo : algo;
  i_scale_cover : bool;
  i_scale_clustering : bool;
  i_dim : nat;
  i_seed : Z;
  i_iterations : Z;
  i_agg : agg_fn A;
  i_agg_name : string }.
Record caches : Type := mkcaches {
  c_data : cache source (frame * frame);
  c_graph : cache mapper_key graph;
  c_plot : cache plot_key (mapper_plot A);
  c_fig : cache fig_key (figure A CS) }.
Definition new_caches : caches := mkcaches [] [] [] [].
(** The page: an error message, or the graph, the plot, its figure and the data to download. *)
Record page : Type := mkpage { o_X : frame; o_y : frame; o_graph : graph; o_plot : mapper_plot A; o_fig : figure A CS; o_download : frame }.
Inductive screen : Type := Message | Page (p : page).

(** streamlit_app.py:929-957 [main], with 648-661 [mapper_input_section], 716-736 [mapper_plot_section],
    764-787 [mapper_figure_section] and 889-890. The summary of the data and the download of the graph
    are left out. *)
Definition main_run (i : inputs) (c : caches) : caches * res screen :=
  match cached source_dec (Some 1) (i_source i) (load_data (i_source i)) (c_data c) with
  | (cd, Err ValueError) => (mkcaches cd (c_graph c) (c_plot c) (c_fig c), Ok Message)
  | (cd, Err e) => (mkcaches cd (c_graph c) (c_plot c) (c_fig c), Err e)
  | (cd, Ok (df_X, df_y)) =>
      let X := to_numpy A nan df_X in
      match lens_values (i_lens i) df_X with
      | Err e => (mkcaches cd (c_graph c) (c_plot c) (c_fig c), Err e)
      | Ok y =>
          match cached mapper_key_dec None (repr (i_algo i), X, y, i_scale_clustering i, i_scale_cover i)
                  (compute_mapper (i_algo i) X y (i_scale_clustering i) (i_scale_cover i)) (c_graph c) with
          | (cg, Err e) => (mkcaches cd cg (c_plot c) (c_fig c), Err e)
          | (cg, Ok g) =>
              match cached plot_key_dec None (encode_graph g, i_dim i, i_seed i, i_iterations i)
                      (compute_plot g (i_dim i) (i_seed i) (i_iterations i)) (c_plot c) with
              | (cp, Err e) => (mkcaches cd cg cp (c_fig c), Err e)
              | (cp, Ok m) =>
                  let colors := concat_cols A nan [df_y; df_X] in
                  match cached fig_key_dec None (mp_pos m, colors, i_agg_name i) (compute_fig m colors (i_agg i)) (c_fig c) with
                  | (cf, Err e) => (mkcaches cd cg cp cf, Err e)
                  | (cf, Ok f) => (mkcaches cd cg cp cf, Ok (Page (mkpage df_X df_y g m (update_layout old_layout f) (stack df_X df_y))))
                  end
              end
          end
      end
  end.
(** The caches after some runs. *)
Definition after (is : list inputs) : caches := fold_left (fun c i => fst (main_run i c)) is new_caches.
End OldApp.
Arguments mkinputs {A algo}. Arguments i_source {A algo}. Arguments i_lens {A algo}. Arguments i_algo {A algo}.
Arguments i_scale_cover {A algo}. Arguments i_scale_clustering {A algo}. Arguments i_dim {A algo}. Arguments i_seed {A algo}.
Arguments i_iterations {A algo}. Arguments i_agg {A algo}. Arguments i_agg_name {A algo}.
Arguments mkcaches {A CS}. Arguments c_data {A CS}. Arguments c_graph {A CS}. Arguments c_plot {A CS}. Arguments c_fig {A CS}.
Arguments new_caches {A CS}. Arguments mkpage {A CS}. Arguments o_X {A CS}. Arguments o_y {A CS}. Arguments o_graph {A CS}.
Arguments o_plot {A CS}. Arguments o_fig {A CS}. Arguments o_download {A CS}. Arguments Message {A CS}. Arguments Page {A CS}.
