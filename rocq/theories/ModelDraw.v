(** Model of src/tdamapper/plot.py (layout), plot_backends/plot_matplotlib.py and
    plot_backends/plot_pyvis.py: the data handed to the plotting libraries. What
    these libraries draw from it is not modelled, nor are html and styling. *)
From Coq Require Import String Reals.
From Verif Require Import Base Dict SpecMetric ModelArith ModelCore.
Open Scope nat_scope.

(** [graph.nodes()]. *)
Definition nodes (g : graph) : list Z := map fst (g_nodes g).

(** [nx.get_node_attributes(graph, "size")]. *)
Definition attr_size (g : graph) : list (Z * nat) := map (fun e => (fst e, fst (snd e))) (g_nodes g).

(** [graph.edges()] of an undirected networkx graph: nodes in order, neighbours
    in order, leaving out neighbours that were visited as nodes before. *)
Fixpoint edges_from (seen : list Z) (adj : list (Z * list Z)) : list (Z * Z) :=
  match adj with
  | [] => []
  | (n, nbrs) :: rest =>
      map (fun v => (n, v)) (filter (fun v => negb (existsb (Z.eqb v) seen)) nbrs)
      ++ edges_from (n :: seen) rest
  end.
Definition edges (g : graph) : list (Z * Z) := edges_from [] (g_adj g).

(** Python's [min(l)] and [max(l)]: the first entry that no later one beats;
    [None] is the default for an empty list. *)
Definition py_min {A : Type} (lt : A -> A -> bool) (l : list A) : option A :=
  match l with [] => None | a :: r => Some (fold_left (fun m x => if lt x m then x else m) r a) end.
Definition py_max {A : Type} (lt : A -> A -> bool) (l : list A) : option A :=
  match l with [] => None | a :: r => Some (fold_left (fun m x => if lt m x then x else m) r a) end.

(** [max(attr_size.values(), default=1.0)]. *)
Definition max_size (g : graph) : nat :=
  match py_max Nat.ltb (map snd (attr_size g)) with Some m => m | None => 1 end.

(** The third-party number type with infinities and not-a-number, without
    rounding: [XA] is used to state properties of the arithmetic. Division by
    zero, which the modelled code never does, is set to not-a-number. *)
Inductive xr : Type := XNan | XNeg | XFin (r : R) | XPos.
Definition xlt (a b : xr) : bool :=
  match a, b with
  | XFin x, XFin y => Rltb x y
  | XNeg, XFin _ | XNeg, XPos | XFin _, XPos => true
  | _, _ => false
  end.
Definition xle (a b : xr) : bool :=
  match a, b with
  | XFin x, XFin y => Rleb x y
  | XNeg, XFin _ | XNeg, XPos | XFin _, XPos | XNeg, XNeg | XPos, XPos => true
  | _, _ => false
  end.
Definition xopp (a : xr) : xr :=
  match a with XFin x => XFin (- x) | XNeg => XPos | XPos => XNeg | XNan => XNan end.
Definition xadd (a b : xr) : xr :=
  match a, b with
  | XFin x, XFin y => XFin (x + y)
  | XNan, _ | _, XNan | XNeg, XPos | XPos, XNeg => XNan
  | XNeg, _ | _, XNeg => XNeg
  | XPos, _ | _, XPos => XPos
  end.
Definition xsub (a b : xr) : xr := xadd a (xopp b).
Definition xsign (a : xr) (r : R) : xr :=
  if Rltb 0 r then a else if Rltb r 0 then xopp a else XNan.
Definition xmul (a b : xr) : xr :=
  match a, b with
  | XFin x, XFin y => XFin (x * y)
  | XNan, _ | _, XNan => XNan
  | XFin x, i | i, XFin x => xsign i x
  | XPos, i | i, XPos => i
  | XNeg, XNeg => XPos
  end.
Definition xdiv (a b : xr) : xr :=
  match a, b with
  | XFin x, XFin y => if Req_EM_T y 0 then XNan else XFin (x / y)
  | XFin _, XPos | XFin _, XNeg => XFin 0
  | XPos, XFin y => xsign XPos y
  | XNeg, XFin y => xsign XNeg y
  | _, _ => XNan
  end.
Definition xsqrt (a : xr) : xr :=
  match a with XFin x => if Rltb x 0 then XNan else XFin (sqrt x) | XPos => XPos | _ => XNan end.
Definition XA : arith := {|
  num := xr; add := xadd; sub := xsub; mul := xmul; div := xdiv;
  pow := fun _ _ => XNan; ofz := fun z => XFin (IZR z); floorz := fun _ => 0%Z;
  le_b := xle; lt_b := xlt |}.

(** [int(round(x))] for finite [x]: to the nearest integer, ties to even. *)
Definition round_even (r : R) : Z :=
  let f := Int_part r in
  let d := (r - IZR f)%R in
  if Rltb d (1 / 2) then f
  else if Rltb (1 / 2) d then (f + 1)%Z
  else if Z.even f then f else (f + 1)%Z.
Definition xround (a : xr) : Z := match a with XFin r => round_even r | _ => 0%Z end.

Section Draw.
Variable A : arith.
Notation num := (num A).
Variable root : num -> num.          (* math.sqrt *)
Variable round_int : num -> Z.       (* int(round(x)) *)
Variables pinf ninf : num.           (* float("inf"), -float("inf") *)

(** plot_backends/common.py:10-31 [MapperPlotType]; [dict[int, tuple[float, ...]]]. *)
Definition position : Type := list num.
Record mapper_plot : Type := mkplot {
  mp_graph : graph;
  mp_dim : nat;
  mp_pos : list (Z * position) }.

(** Results of the layout libraries, for a given seed and number of iterations:
    igraph returns one row per node, networkx a dictionary. *)
Variable ig_layout : nat -> graph -> list (list num).
Variable nx_layout : nat -> graph -> list (Z * position).

(** plot.py:84-87 and 93-96: the entry for the [i]-th node. *)
Definition ig_row (dim : nat) (layout : list (list num)) (i : nat) : res position :=
  do row <- rd layout i;
  map_res (rd row) (seq 0 dim).

(** plot.py:71-97 [_compute_pos_ig]. *)
Definition compute_pos_ig (g : graph) (dim : nat) : res (list (Z * position)) :=
  match nodes g with
  | [] => Ok []
  | ns =>
      if (dim =? 2) || (dim =? 3) then
        for_each (combine (seq 0 (length ns)) ns)
          (fun p pos => do r <- ig_row dim (ig_layout dim g) (fst p); Ok (dset Z.eqb pos (snd p) r)) []
      else Ok []
  end.

(** plot.py:53-69 [_compute_pos]. *)
Definition compute_pos (g : graph) (dim : nat) (engine : string) : res (list (Z * position)) :=
  if String.eqb engine "igraph" then compute_pos_ig g dim
  else if String.eqb engine "networkx" then Ok (nx_layout dim g)
  else Err ValueError.

(** plot.py:38-51 [MapperPlot.__init__]. *)
Definition make_plot (g : graph) (dim : nat) (engine : string) : res mapper_plot :=
  do pos <- compute_pos g dim engine;
  Ok (mkplot g dim pos).

(** [self.positions[n][i]]. *)
Definition pos_at (pos : list (Z * position)) (i : nat) (n : Z) : res num :=
  do p <- dget_res Z.eqb pos n; rd p i.

(** plot_plotly.py:336-339, plot_matplotlib.py:135-138 [_node_pos_array]. *)
Definition node_pos_array (m : mapper_plot) : res (list (list num)) :=
  map_res (fun i => map_res (pos_at (mp_pos m) i) (nodes (mp_graph m))) (seq 0 (mp_dim m)).

(** [a / b] for integers. *)
Definition int_div (a b : nat) : res num :=
  if b =? 0 then Err ZeroDivisionError else Ok (div A (ofz A (Z.of_nat a)) (ofz A (Z.of_nat b))).

Definition agg_fn : Type := list num -> res num.

(** The data handed to [ax.scatter], [LineCollection] and the colour bar. *)
Record mpl : Type := mkmpl {
  mpl_x : list num;
  mpl_y : list num;
  mpl_c : list num;
  mpl_s : list num;
  mpl_vmin : option num;
  mpl_vmax : option num;
  mpl_cmap : string;
  mpl_label : option string;
  mpl_segments : list (position * position) }.

(** plot_matplotlib.py:120-123, in [_plot_edges]. *)
Definition mpl_edges (m : mapper_plot) : res (list (position * position)) :=
  map_res (fun e => do p <- dget_res Z.eqb (mp_pos m) (fst e);
                    do q <- dget_res Z.eqb (mp_pos m) (snd e); Ok (p, q))
          (edges (mp_graph m)).

(** plot_matplotlib.py:83-86, one entry of [marker_size]. *)
Definition mpl_size (node_size : num) (g : graph) (n : Z) : res num :=
  do s <- dget_res Z.eqb (attr_size g) n;
  do q <- int_div s (max_size g);
  Ok (mul A (mul A node_size (ofz A 200)) (root q)).

(** plot_matplotlib.py:29-116 [plot_matplotlib], [_plot_nodes]. *)
Definition plot_matplotlib (m : mapper_plot) (title : option string) (colors : list num)
    (node_size : num) (agg : agg_fn) (cmap : string) : res mpl :=
  do segments <- mpl_edges m;
  do arr <- node_pos_array m;
  do colors_agg <- aggregate_graph colors (mp_graph m) agg;
  do marker_color <- map_res (dget_res Z.eqb colors_agg) (nodes (mp_graph m));
  do marker_size <- map_res (mpl_size node_size (mp_graph m)) (nodes (mp_graph m));
  do x <- rd arr 0;
  do y <- rd arr 1;
  Ok (mkmpl x y marker_color marker_size (py_min (lt_b A) marker_color) (py_max (lt_b A) marker_color)
        cmap title segments).

(** What [net.add_node] receives. [pv_color] is the point of the colour scale
    that is sampled; [pv_title] holds the numbers shown in the tooltip. *)
Record pv_node : Type := mkpv {
  pv_id : Z;
  pv_size : Z;
  pv_color : num;
  pv_title : num * Z * Z;
  pv_x : num;
  pv_y : num }.
Record network : Type := mknet {
  net_nodes : list pv_node;
  net_edges : list (Z * Z);
  net_cmin : num;
  net_cmax : num }.

(** plot_pyvis.py:207-214: both bounds in one pass over the sizes; [None] stands
    for the infinite start values. *)
Definition size_step (p : option nat * option nat) (s : nat) : option nat * option nat :=
  let '(lo, hi) := p in
  (match lo with Some l => if s <? l then Some s else lo | None => Some s end,
   match hi with Some h => if h <? s then Some s else hi | None => Some s end).
Definition size_bounds (sizes : list nat) : option nat * option nat :=
  fold_left size_step sizes (None, None).

(** plot_pyvis.py:218-225. *)
Definition color_step (p : num * num) (c : num) : num * num :=
  (if lt_b A c (fst p) then c else fst p, if lt_b A (snd p) c then c else snd p).
Definition color_bounds (colors : list num) : num * num := fold_left color_step colors (pinf, ninf).

(** plot_pyvis.py:228-234 [_size]. *)
Definition pv_size_of (node_size : num) (bounds : option nat * option nat) (n_size : nat) : res Z :=
  match bounds with
  | (Some lo, Some hi) =>
      if hi =? lo then Ok (round_int (ofz A 25))
      else
        do q <- int_div n_size hi;
        Ok (round_int (mul A (mul A node_size (ofz A 25)) (root q)))
  | _ => Ok (round_int (ofz A 25))
  end.

(** plot_pyvis.py:236-243 [_color], up to the sampling of the colour scale. *)
Definition clamp01 (c : num) : num :=
  let m := if lt_b A c (ofz A 1) then c else ofz A 1 in
  if lt_b A (ofz A 0) m then m else ofz A 0.
Definition pv_color_of (bounds : num * num) (c : num) : num :=
  clamp01 (if eq_b A (snd bounds) (fst bounds) then div A (ofz A 1) (ofz A 2)
           else div A (sub A c (fst bounds)) (sub A (snd bounds) (fst bounds))).

(** plot_pyvis.py:246-261, the node loop; [width] and [height] are integers. *)
Definition pv_node_of (m : mapper_plot) (node_size : num) (width height : Z)
    (sizes : option nat * option nat) (colors : list (Z * num)) (bounds : num * num) (n : Z) : res pv_node :=
  do s <- dget_res Z.eqb (attr_size (mp_graph m)) n;
  do size <- pv_size_of node_size sizes s;
  do c <- dget_res Z.eqb colors n;
  do p <- dget_res Z.eqb (mp_pos m) n;
  do x <- rd p 0;
  do y <- rd p 1;
  Ok (mkpv n size (pv_color_of bounds c) (c, n, size)
        (mul A x (ofz A width)) (mul A (sub A (ofz A 0) y) (ofz A height))).

(** plot_pyvis.py:184-271 [_compute_net]. [get_colorscale] raises for unknown
    names. [-a * b] is computed as [(0 - a) * b]. *)
Variable CS : Type.
Variable get_colorscale : string -> res CS.
Definition compute_net (m : mapper_plot) (colors : list num) (node_size : num) (agg : agg_fn)
    (width height : Z) (cmap : string) : res network :=
  let g := mp_graph m in
  do _ <- get_colorscale cmap;
  let sizes := size_bounds (map snd (attr_size g)) in
  do node_colors <- aggregate_graph colors g agg;
  do cs <- map_res (dget_res Z.eqb node_colors) (nodes g);
  let bounds := color_bounds cs in
  do ns <- map_res (pv_node_of m node_size width height sizes node_colors bounds) (nodes g);
  Ok (mknet ns (edges g) (fst bounds) (snd bounds)).
End Draw.
Arguments mkplot {A}.
Arguments mp_graph {A}.
Arguments mp_dim {A}.
Arguments mp_pos {A}.
Arguments mkmpl {A}.
Arguments mpl_x {A}.
Arguments mpl_y {A}.
Arguments mpl_c {A}.
Arguments mpl_s {A}.
Arguments mpl_vmin {A}.
Arguments mpl_vmax {A}.
Arguments mpl_cmap {A}.
Arguments mpl_label {A}.
Arguments mpl_segments {A}.
Arguments mkpv {A}.
Arguments pv_id {A}.
Arguments pv_size {A}.
Arguments pv_color {A}.
Arguments pv_title {A}.
Arguments pv_x {A}.
Arguments pv_y {A}.
Arguments mknet {A}.
Arguments net_nodes {A}.
Arguments net_edges {A}.
Arguments net_cmin {A}.
Arguments net_cmax {A}.
