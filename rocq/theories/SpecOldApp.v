(** What the former web application should show. *)
From Coq Require Import String.
From Verif Require Import Base Dict ModelArith ModelCore SpecCore ModelDraw ModelPlotly SpecPlot ModelApp ModelEntry ModelOldApp.
Open Scope string_scope. Open Scope list_scope. Open Scope nat_scope.

(** The same nodes and edges, whatever the attributes and the order. *)
Definition same_structure (g g' : graph) : Prop :=
  (forall n, In n (nodes g) <-> In n (nodes g')) /\ (forall a b, adjacent g a b <-> adjacent g' a b).
Definition proper_graph (g : graph) : Prop := well_formed g /\ symmetric_graph g.

Section Own.
Variable A : arith.
Variable missing : num A -> bool.
Variable nan : num A.
Variable lim : limits.
Variables digits iris : frame A * frame A.
Variable fetch_openml : string -> res (frame A * frame A).
Variable read_csv : Z -> res (frame A).
Variables pca umap : nat -> Z -> matrix A -> res (matrix A).
Variable algo : Type.
Variable repr : algo -> string.
Variable fit_transform : algo -> matrix A -> matrix A -> res graph.
Variable standard_scaler : matrix A -> res (matrix A).
Variable layout_of : Z -> Z -> nat -> graph -> list (list (num A)).
Notation load := (load_data A missing nan lim digits iris fetch_openml read_csv).

(** The graph and the plot of some inputs, on their own. *)
Definition own_graph (i : inputs A algo) (g : graph) : Prop :=
  exists df_X df_y y, load (i_source i) = Ok (df_X, df_y) /\ lens_values A nan pca umap (i_lens i) df_X = Ok y /\
    compute_mapper A algo fit_transform standard_scaler (i_algo i) (to_numpy A nan df_X) y (i_scale_clustering i) (i_scale_cover i) = Ok g.
Definition own_plot (i : inputs A algo) (m : mapper_plot A) : Prop :=
  exists g, own_graph i g /\ compute_plot A lim layout_of g (i_dim i) (i_seed i) (i_iterations i) = Ok m.

(** Algorithms with the same text do the same. *)
Definition texts_tell (is : list (inputs A algo)) : Prop :=
  forall i j, In i is -> In j is -> repr (i_algo i) = repr (i_algo j) ->
    forall X y, fit_transform (i_algo i) X y = fit_transform (i_algo j) X y.
(** Graphs with the same structure are the same, plots with the same positions are the same, aggregations
    with the same name are the same. *)
Definition structures_tell (is : list (inputs A algo)) : Prop :=
  forall i j g g', In i is -> In j is -> own_graph i g -> own_graph j g' -> same_structure g g' -> g = g'.
Definition positions_tell (is : list (inputs A algo)) : Prop :=
  forall i j m m', In i is -> In j is -> own_plot i m -> own_plot j m' -> mp_pos m = mp_pos m' -> m = m'.
Definition names_tell (is : list (inputs A algo)) : Prop :=
  forall i j, In i is -> In j is -> i_agg_name i = i_agg_name j -> i_agg i = i_agg j.
End Own.

(** Within the limits. *)
Definition small_graph (l : limits) (g : graph) : Prop :=
  l_enabled l = true -> (Z.of_nat (length (nodes g)) <= l_nodes l)%Z /\ (Z.of_nat (length (edges g)) <= l_edges l)%Z.
Definition small_data {A : arith} (l : limits) (df_X df_y : frame A) : Prop :=
  l_enabled l = true -> (Z.of_nat (fr_rows df_X) <= l_samples l)%Z /\
    (Z.of_nat (length (fr_cols df_X)) + Z.of_nat (length (fr_cols df_y)) <= l_features l)%Z.

(** A table as the values of named columns. *)
Definition value_at {A : arith} (d : frame A) (name : string) (i : nat) (x : num A) : Prop :=
  exists l, In (name, CNum l) (fr_cols d) /\ nth_error l i = Some x.
