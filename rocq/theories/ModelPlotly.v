(** Model of src/tdamapper/plot_backends/plot_plotly.py.

    A plotly figure is a list of traces, a layout, menus and sliders. Traces and
    the layout are dictionaries from dotted paths ("marker.colorbar.title.text")
    to values; plotly's underscore shorthand [marker_colorscale] is the path
    "marker.colorscale". Axis styling and placement of the controls are left out.
    Texts keep the numbers they show; ModelFmt writes them out. *)
From Coq Require Import String DecimalString.
From Verif Require Import Base Dict ModelArith ModelCore ModelDraw.
Open Scope nat_scope.

Section Plotly.
Variable A : arith.
Notation num := (num A).
(** [pc.get_colorscale(name)] as a list of pairs; unknown names raise. *)
Variable CS : Type.
Variable get_colorscale : string -> res CS.
(** plot_plotly.py:64-76 [PLOTLY_CMAPS.get(c.lower())]. *)
Variable plotly_cmap : string -> option string.
(** [f"{x}"] for a number. *)
Variable str_num : num -> string.

Inductive aval : Type :=
| ANone
| ABool (b : bool)
| AInt (z : Z)
| AStr (s : string)
| ANum (x : num)
| ANums (l : list num)
| APath (l : list (option num))             (* with gaps between segments *)
| ATexts (l : list (num * Z * nat))         (* colour, node, size of each node *)
| AScale (c : CS).

Definition attrs : Type := list (string * aval).
(** An entry of a menu or slider: what the browser is told to do when it is chosen. *)
Record button : Type := mkbutton {
  b_label : string;
  b_method : string;
  b_args : list (string * list aval);
  b_targets : list nat }.
Record menu : Type := mkmenu { m_name : string; m_buttons : list button; m_active : nat }.
Record slider : Type := mkslider { s_name : string; s_active : nat; s_steps : list button }.
Record figure : Type := mkfig {
  f_traces : list attrs;
  f_layout : attrs;
  f_menus : list menu;
  f_sliders : list slider }.

(** Reading an attribute; attributes never set or set to [None] read as [None]. *)
Definition attr (t : attrs) (path : string) : aval :=
  match dget String.eqb t path with Some v => v | None => ANone end.
Definition apply_patch (patch t : attrs) : attrs :=
  fold_left (fun t p => dset String.eqb t (fst p) (snd p)) patch t.
Definition has_name (name : string) (t : attrs) : bool :=
  match attr t "name" with AStr s => String.eqb s name | _ => false end.

(** [fig.update_traces(patch, selector=dict(name=name))], [fig.update_layout(patch)]. *)
Definition update_traces (patch : attrs) (name : string) (f : figure) : figure :=
  mkfig (map (fun t => if has_name name t then apply_patch patch t else t) (f_traces f))
        (f_layout f) (f_menus f) (f_sliders f).
Definition update_layout (patch : attrs) (f : figure) : figure :=
  mkfig (f_traces f) (apply_patch patch (f_layout f)) (f_menus f) (f_sliders f).
(** plot_plotly.py:721-727. *)
Definition set_controls (menus : list menu) (sliders : list slider) (f : figure) : figure :=
  mkfig (f_traces f) (f_layout f) menus sliders.

(** Statements acting on [self.fig]: the figure afterwards, and the exception if
    one was raised (the figure then keeps the changes made before it). *)
Definition fop : Type := figure -> figure * res unit.
Definition fdo (u : figure -> figure) : fop := fun f => (u f, Ok tt).
Definition fseq (a b : fop) : fop :=
  fun f => match a f with (f1, Ok _) => b f1 | (f1, Err e) => (f1, Err e) end.
Definition fwith {B : Type} (r : res B) (k : B -> fop) : fop :=
  fun f => match r with Ok b => k b f | Err e => (f, Err e) end.
Definition fskip : fop := fun f => (f, Ok tt).
Definition fopt {B : Type} (o : option B) (k : B -> fop) : fop :=
  match o with Some b => k b | None => fskip end.

Definition nodes_trace_name : string := "nodes_trace".
Definition edges_trace_name : string := "edges_trace".
Definition opt_num (o : option num) : aval := match o with Some x => ANum x | None => ANone end.
Definition str_nat (n : nat) : string := NilZero.string_of_uint (Nat.to_uint n).

(** A 2-d colour array. *)
Record colors2 : Type := mkcolors { c_rows : list (list num); c_cols : nat }.
Definition column (c : colors2) (i : nat) : res (list num) :=
  if i <? c_cols c then map_res (fun r => rd r i) (c_rows c) else Err IndexError.

(** Arguments, by type. *)
Inductive cmap_arg : Type := CMNone | CMStr (s : string) | CMList (l : list string) | CMOther.
Inductive colors_arg : Type := CA1 (l : list num) | CA2 (c : colors2) | CAOther.
Inductive title_arg : Type := TNone | TStr (s : string) | TList (l : list string) | TOther.
Inductive size_arg : Type := NSNone | NSNum (x : num) | NSList (l : list num) | NSOther.

(** plot_plotly.py:84-93. *)
Definition to_cmaps (c : cmap_arg) : res (list string) :=
  match c with
  | CMNone => Ok ["Jet"%string]
  | CMStr s => Ok [s]
  | CMList l => Ok l
  | CMOther => Err ValueError
  end.
(** plot_plotly.py:96-106. *)
Definition to_colors (c : colors_arg) : res colors2 :=
  match c with
  | CA1 l => Ok (mkcolors (map (fun x => [x]) l) 1)
  | CA2 c => Ok c
  | CAOther => Err ValueError
  end.
(** plot_plotly.py:109-122. *)
Definition to_titles (t : title_arg) (colors_num : nat) : res (list string) :=
  match t with
  | TNone => Ok (map str_nat (seq 0 colors_num))
  | TStr s =>
      if colors_num =? 1 then Ok [s]
      else Ok (map (fun i => s ++ " [" ++ str_nat i ++ "]")%string (seq 0 colors_num))
  | TList l => if length l =? colors_num then Ok l else Err ValueError
  | TOther => Err ValueError
  end.
(** plot_plotly.py:125-136. *)
Definition to_node_sizes (n : size_arg) : res (list num) :=
  match n with
  | NSNum x => Ok [x]
  | NSList l => Ok l
  | NSNone | NSOther => Err ValueError
  end.

Variable m : mapper_plot A.
Notation g := (mp_graph m).
Notation dim := (mp_dim m).

(** plot_plotly.py:341-351 [_edge_pos_array], one axis at a time. *)
Definition edge_pos_axis (i : nat) : res (list (option num)) :=
  do parts <- map_res (fun e => do a <- pos_at A (mp_pos m) i (fst e);
                                do b <- pos_at A (mp_pos m) i (snd e);
                                Ok [Some a; Some b; None]) (edges g);
  Ok (concat parts).
Definition edge_pos_array : res (list (list (option num))) := map_res edge_pos_axis (seq 0 dim).

(** plot_plotly.py:353-358 [_marker_size]; 41-43 for the factors. *)
Definition size_factor : Z := if dim =? 3 then 600 else 400.
Definition marker_size : res (list num) :=
  map_res (fun n => do s <- dget_res Z.eqb (attr_size g) n;
                    if max_size g =? 0 then Err ZeroDivisionError
                    else Ok (div A (mul A (ofz A size_factor) (ofz A (Z.of_nat s)))
                                   (ofz A (Z.of_nat (max_size g))))) (nodes g).

(** plot_plotly.py:594-612 [_colorbar]. *)
Definition colorbar (title : string) : attrs :=
  [("orientation", AStr "v"); ("showticklabels", ABool true); ("outlinewidth", AInt 1);
   ("borderwidth", AInt 0); ("thicknessmode", AStr "fraction"); ("title.side", AStr "right");
   ("title.text", AStr title); ("xanchor", AStr "right"); ("x", ANum (ofz A 1)); ("ypad", AInt 0);
   ("xpad", AInt 0); ("tickwidth", AInt 1); ("tickformat", AStr ".2g"); ("nticks", AInt 10);
   ("tickmode", AStr "auto")]%string.
Definition under (prefix : string) (d : attrs) : attrs :=
  map (fun p => (prefix ++ fst p, snd p)%string) d.

(** plot_plotly.py:614-622 [_text]. *)
Definition text (colors : list (Z * num)) : res (list (num * Z * nat)) :=
  map_res (fun n => do c <- dget_res Z.eqb colors n;
                    do s <- dget_res Z.eqb (attr_size g) n; Ok (c, n, s)) (nodes g).

(** plot_plotly.py:360-384 [_set_cmap]. *)
Definition set_cmap (cmap : string) : fop :=
  fwith (get_colorscale cmap) (fun cs =>
  fseq (fdo (update_traces [("marker.colorscale", AScale cs); ("marker.line.colorscale", AScale cs)]%string
               nodes_trace_name))
       (if dim =? 3 then fdo (update_traces [("line.colorscale", AScale cs)]%string edges_trace_name)
        else if dim =? 2 then
          fdo (update_traces [("marker.colorscale", AScale cs); ("marker.line.colorscale", AScale cs)]%string
                 edges_trace_name)
        else fskip)).

(** plot_plotly.py:386-396 [_edge_colors_from_node_colors]. *)
Definition edge_colors (colors : list (Z * num)) : res (list num) :=
  do parts <- map_res (fun e => do a <- dget_res Z.eqb colors (fst e);
                                do b <- dget_res Z.eqb colors (snd e); Ok [a; b; b]) (edges g);
  Ok (concat parts).

(** plot_plotly.py:398-427 [_set_colors]. *)
Definition set_colors (colors : list num) (agg : agg_fn A) : fop :=
  fwith (aggregate_graph colors g agg) (fun col_agg =>
  let arr := map snd col_agg in
  fwith (text col_agg) (fun txt =>
  fseq (fdo (update_traces
               [("text", ATexts txt); ("marker.opacity", ANum (ofz A 1)); ("marker.color", ANums arr);
                ("marker.cmin", opt_num (py_min (lt_b A) arr)); ("marker.cmax", opt_num (py_max (lt_b A) arr))]%string
               nodes_trace_name))
       (if dim =? 3 then
          fwith (edge_colors col_agg) (fun ec =>
          fdo (update_traces
                 [("line.color", ANums ec); ("line.cmin", opt_num (py_min (lt_b A) arr));
                  ("line.cmax", opt_num (py_max (lt_b A) arr))]%string edges_trace_name))
        else fskip))).

(** plot_plotly.py:429-437 [_set_title]. *)
Definition set_title (name : string) : fop :=
  fdo (update_traces (under "marker.colorbar." (colorbar name)) nodes_trace_name).

(** plot_plotly.py:445 and 884; 39 for the constant. *)
Definition sizeref (node_size : num) : num :=
  if eq_b A node_size (zero A) then ofz A 1000000000
  else let r := div A (ofz A 1) node_size in mul A r r.

(** plot_plotly.py:439-451 [_set_node_size]. *)
Definition set_node_size (node_size : num) : fop :=
  fdo (update_traces [("marker.sizeref", ANum (sizeref node_size)); ("marker.sizemin", ANum (ofz A 1));
                      ("marker.sizemode", AStr "area")]%string nodes_trace_name).

(** plot_plotly.py:453-465. *)
Definition set_width (w : Z) : fop := fdo (update_layout [("width"%string, AInt w)]).
Definition set_height (h : Z) : fop := fdo (update_layout [("height"%string, AInt h)]).

(** plot_plotly.py:494-531 [update_figure]. *)
Definition update_figure (titles : option (list string)) (node_sizes : option (list num))
    (colors : option colors2) (agg : option (agg_fn A)) (cmaps : option (list string))
    (width height : option Z) : fop :=
  fseq (fopt width set_width)
  (fseq (fopt height set_height)
  (fseq (fopt titles (fun l => fwith (rd l 0) set_title))
  (fseq (fopt node_sizes (fun l => fwith (rd l (length l / 2)) set_node_size))
  (fseq (fopt colors (fun c => fopt agg (fun a => fwith (column c 0) (fun col => set_colors col a))))
        (fopt cmaps (fun l => fwith (rd l 0) set_cmap)))))).

(** plot_plotly.py:533-559 [_nodes_trace]. *)
Definition nodes_trace (arr : list (list num)) : res attrs :=
  do x <- rd arr 0;
  do y <- rd arr 1;
  do size <- marker_size;
  let scatter :=
    [("name", AStr nodes_trace_name); ("x", ANums x); ("y", ANums y); ("mode", AStr "markers");
     ("hoverinfo", AStr "text"); ("opacity", ANum (ofz A 1)); ("marker.showscale", ABool true);
     ("marker.reversescale", ABool false); ("marker.size", ANums size); ("marker.opacity", ANum (ofz A 1));
     ("marker.line.width", ANum (div A (ofz A 3) (ofz A 4))); ("marker.line.color", AStr "#777");
     ("marker.line.colorscale", AStr "Jet"); ("marker.colorscale", AStr "Jet")]%string
    ++ under "marker.colorbar." (colorbar "") in
  if dim =? 3 then do z <- rd arr 2; Ok (scatter ++ [("z"%string, ANums z)]) else Ok scatter.

(** plot_plotly.py:561-592 [_edges_trace]. *)
Definition edges_trace (arr : list (list (option num))) : res attrs :=
  do x <- rd arr 0;
  do y <- rd arr 1;
  let scatter :=
    [("name", AStr edges_trace_name); ("x", APath x); ("y", APath y); ("mode", AStr "lines");
     ("opacity", ANum (ofz A 1)); ("line.color", AStr "#777"); ("hoverinfo", AStr "skip")]%string in
  if dim =? 3 then
    do z <- rd arr 2;
    Ok (scatter ++ [("z", APath z); ("line.colorscale", AStr "Jet");
                    ("line.width", ANum (div A (ofz A 3) (ofz A 2)));
                    ("marker.line.width", ANum (div A (ofz A 3) (ofz A 2)))]%string)
  else
    Ok (scatter ++ [("marker.colorscale", AStr "Jet"); ("marker.line.width", ANum (div A (ofz A 3) (ofz A 4)));
                    ("marker.line.colorscale", AStr "Jet"); ("line.width", ANum (div A (ofz A 3) (ofz A 4)))]%string).

(** plot_plotly.py:624-664 [_layout], without axes and margins. *)
Definition layout : attrs :=
  [("autosize", ABool true); ("height", ANone); ("width", ANone); ("showlegend", ABool false);
   ("hovermode", AStr "closest"); ("font.color", AStr "#2a3f5f"); ("paper_bgcolor", AStr "white");
   ("plot_bgcolor", AStr "white")]%string.

(** plot_plotly.py:729-763 [_ui_menu_dark_mode]. *)
Definition ui_menu_dark_mode : menu :=
  mkmenu "menu_dark_mode"
    [mkbutton "Light" "relayout" [("font.color", [AStr "#2a3f5f"]); ("paper_bgcolor", [AStr "white"]);
                                  ("plot_bgcolor", [AStr "white"])] [];
     mkbutton "Dark" "relayout" [("font.color", [AStr "#f2f5fa"]); ("paper_bgcolor", [AStr "black"]);
                                 ("plot_bgcolor", [AStr "black"])] []]%string 0.

(** plot_plotly.py:766, 852. *)
Definition target_traces : list nat := if dim =? 3 then [0; 1] else [1].

(** plot_plotly.py:765-802 [_ui_menu_cmap]; no entry is marked active, which plotly
    takes as the first. *)
Definition update_cmap (cs : CS) : list (string * list aval) :=
  if dim =? 3 then
    [("marker.colorscale", [ANone; AScale cs]); ("marker.line.colorscale", [ANone; AScale cs]);
     ("line.colorscale", [AScale cs; ANone])]%string
  else if dim =? 2 then
    [("marker.colorscale", [AScale cs]); ("marker.line.colorscale", [AScale cs])]%string
  else [].
Definition ui_menu_cmap (cmaps : list string) : res menu :=
  do buttons <- (if 1 <? length cmaps then
                   map_res (fun c => do cs <- get_colorscale c;
                                     Ok (mkbutton c "restyle" (update_cmap cs) target_traces)) cmaps
                 else Ok []);
  Ok (mkmenu "menu_cmap" buttons 0).

(** plot_plotly.py:804-874 [_ui_menu_color]. *)
Definition update_colors (colors : colors2) (titles : list string) (agg : agg_fn A) (i : nat)
  : res (list (string * list aval)) :=
  do col <- column colors i;
  do col_agg <- aggregate_graph col g agg;
  let arr := map snd col_agg in
  do txt <- text col_agg;
  do title <- rd titles i;
  let cmin := opt_num (py_min (lt_b A) arr) in
  let cmax := opt_num (py_max (lt_b A) arr) in
  if dim =? 3 then
    do ec <- edge_colors col_agg;
    Ok ([("text"%string, [ANone; ATexts txt])]
        ++ map (fun p => (fst p, [ANone; snd p])) (under "marker.colorbar." (colorbar title))
        ++ [("marker.color", [ANone; ANums arr]); ("marker.cmax", [ANone; cmax]); ("marker.cmin", [ANone; cmin]);
            ("line.color", [ANums ec; ANone]); ("line.cmax", [cmax; ANone]); ("line.cmin", [cmin; ANone])]%string)
  else if dim =? 2 then
    Ok ([("text"%string, [ATexts txt])]
        ++ map (fun p => (fst p, [snd p])) (under "marker.colorbar." (colorbar title))
        ++ [("marker.color", [ANums arr]); ("marker.cmax", [cmax]); ("marker.cmin", [cmin])]%string)
  else Ok [].
Definition ui_menu_color (colors : colors2) (titles : list string) (agg : agg_fn A) : res menu :=
  do buttons <- (if 1 <? c_cols colors then
                   map_res (fun i => do title <- rd titles i;
                                     do args <- update_colors colors titles agg i;
                                     Ok (mkbutton title "restyle" args target_traces)) (seq 0 (c_cols colors))
                 else Ok []);
  Ok (mkmenu "menu_color" buttons 0).

(** plot_plotly.py:876-912 [_ui_slider_node_size]. *)
Definition ui_slider_node_size (node_sizes : list num) : slider :=
  mkslider "slider_node_size" (length node_sizes / 2)
    (map (fun s => mkbutton (str_num s) "restyle" [("marker.sizeref"%string, [ANum (sizeref s)])] [1]) node_sizes).

(** plot_plotly.py:694-703: the last menu or slider with a given name. *)
Definition find_menu (name : string) (l : list menu) : option menu :=
  fold_left (fun o x => if String.eqb (m_name x) name then Some x else o) l None.
Definition find_slider (name : string) (l : list slider) : option slider :=
  fold_left (fun o x => if String.eqb (s_name x) name then Some x else o) l None.
Definition opt_list {B : Type} (o : option B) : list B := match o with Some b => [b] | None => [] end.
Definition somes {B : Type} (l : list (option B)) : list B := concat (map opt_list l).
Definition res_or {B : Type} (o : option (res B)) (old : option B) : res (option B) :=
  match o with Some r => do b <- r; Ok (Some b) | None => Ok old end.

(** plot_plotly.py:666-727 [set_ui]. The old dark mode menu is always replaced. *)
Definition set_ui (cmaps : option (list string)) (colors : option colors2) (titles : option (list string))
    (agg : option (agg_fn A)) (node_sizes : option (list num)) : fop :=
  fun f =>
    fwith (res_or (option_map (fun l => ui_menu_cmap (somes (map plotly_cmap l))) cmaps)
                  (find_menu "menu_cmap" (f_menus f))) (fun mc =>
    fwith (res_or (match colors, agg, titles with
                   | Some c, Some a, Some t => Some (ui_menu_color c t a)
                   | _, _, _ => None
                   end) (find_menu "menu_color" (f_menus f))) (fun mo =>
    fdo (set_controls (somes [Some ui_menu_dark_mode; mc; mo])
           (opt_list (match node_sizes with
                      | Some l => Some (ui_slider_node_size l)
                      | None => find_slider "slider_node_size" (f_sliders f)
                      end))))) f.

(** plot_plotly.py:467-492 [_set_figure] up to the update, and 290-334 [plot]. *)
Definition new_figure : res figure :=
  do node_arr <- node_pos_array A m;
  do edge_arr <- edge_pos_array;
  do e <- edges_trace edge_arr;
  do n <- nodes_trace node_arr;
  Ok (mkfig [e; n] layout [] []).
Definition plot (colors : colors2) (node_sizes : list num) (titles : list string) (agg : agg_fn A)
    (cmaps : list string) (width height : option Z) : res figure :=
  do f0 <- new_figure;
  match fseq (update_figure (Some titles) (Some node_sizes) (Some colors) (Some agg) (Some cmaps) width height)
             (set_ui (Some cmaps) (Some colors) (Some titles) (Some agg) (Some node_sizes)) f0 with
  | (f, Ok _) => Ok f
  | (_, Err e) => Err e
  end.

(** plot_plotly.py:146-194 [plot_plotly]. *)
Definition plot_plotly (colors : colors_arg) (node_size : size_arg) (title : title_arg) (agg : agg_fn A)
    (cmap : cmap_arg) (width height : option Z) : res figure :=
  do cmaps <- to_cmaps cmap;
  do c <- to_colors colors;
  do titles <- to_titles title (c_cols c);
  do node_sizes <- to_node_sizes node_size;
  plot c node_sizes titles agg cmaps width height.

(** plot_plotly.py:197-267 [plot_plotly_update]. *)
Definition given_cmap (c : cmap_arg) : option cmap_arg := match c with CMNone => None | _ => Some c end.
Definition given_title (t : title_arg) : option title_arg := match t with TNone => None | _ => Some t end.
Definition given_size (n : size_arg) : option size_arg := match n with NSNone => None | _ => Some n end.
Definition if_given {B C : Type} (o : option B) (k : B -> res C) : res (option C) :=
  match o with Some b => do c <- k b; Ok (Some c) | None => Ok None end.
Definition plot_plotly_update (width height : option Z) (node_size : size_arg) (colors : option colors_arg)
    (title : title_arg) (agg : option (agg_fn A)) (cmap : cmap_arg) : fop :=
  fwith (if_given (given_cmap cmap) to_cmaps) (fun cmaps =>
  fwith (if_given colors to_colors) (fun c =>
  fwith (if_given (given_title title)
           (fun t => to_titles t (match c with Some c => c_cols c | None => 0 end))) (fun titles =>
  fwith (if_given (given_size node_size) to_node_sizes) (fun node_sizes =>
  fseq (set_ui cmaps c titles agg node_sizes)
       (update_figure titles node_sizes c agg cmaps width height))))).

(** Choosing an entry in the browser. [Plotly.restyle(gd, update, traces)]
    (third party): the [k]-th value goes to the [k]-th of the given traces,
    starting over when there are fewer values than traces. *)
Definition nth_cyc {B : Type} (l : list B) (k : nat) : option B := nth_error l (k mod length l).
Fixpoint patch_traces (patch : nat -> attrs) (i : nat) (ts : list attrs) : list attrs :=
  match ts with
  | [] => []
  | t :: r => apply_patch (patch i) t :: patch_traces patch (S i) r
  end.
Definition restyle_patch (b : button) (i : nat) : attrs :=
  concat (map (fun k => if nth k (b_targets b) 0 =? i then
                          concat (map (fun p => match nth_cyc (snd p) k with Some v => [(fst p, v)] | None => [] end)
                                      (b_args b))
                        else []) (seq 0 (length (b_targets b)))).
Definition restyle (b : button) (f : figure) : figure :=
  mkfig (patch_traces (restyle_patch b) 0 (f_traces f)) (f_layout f) (f_menus f) (f_sliders f).
End Plotly.
Arguments ANone {A CS}.
Arguments ABool {A CS}.
Arguments AInt {A CS}.
Arguments AStr {A CS}.
Arguments ANum {A CS}.
Arguments ANums {A CS}.
Arguments APath {A CS}.
Arguments ATexts {A CS}.
Arguments AScale {A CS}.
Arguments mkbutton {A CS}.
Arguments b_label {A CS}.
Arguments b_method {A CS}.
Arguments b_args {A CS}.
Arguments b_targets {A CS}.
Arguments mkmenu {A CS}.
Arguments m_name {A CS}.
Arguments m_buttons {A CS}.
Arguments m_active {A CS}.
Arguments mkslider {A CS}.
Arguments s_name {A CS}.
Arguments s_active {A CS}.
Arguments s_steps {A CS}.
Arguments mkfig {A CS}.
Arguments f_traces {A CS}.
Arguments f_layout {A CS}.
Arguments f_menus {A CS}.
Arguments f_sliders {A CS}.
Arguments attr {A CS}.
Arguments apply_patch {A CS}.
Arguments has_name {A CS}.
Arguments update_traces {A CS}.
Arguments update_layout {A CS}.
Arguments set_controls {A CS}.
Arguments fdo {A CS}.
Arguments fseq {A CS}.
Arguments fwith {A CS B}.
Arguments fskip {A CS}.
Arguments fopt {A CS B}.
Arguments opt_num {A CS}.
Arguments mkcolors {A}.
Arguments c_rows {A}.
Arguments c_cols {A}.
Arguments column {A}.
Arguments CA1 {A}.
Arguments CA2 {A}.
Arguments CAOther {A}.
Arguments NSNone {A}.
Arguments NSNum {A}.
Arguments NSList {A}.
Arguments NSOther {A}.
Arguments to_colors {A}.
Arguments to_node_sizes {A}.
Arguments find_menu {A CS}.
Arguments find_slider {A CS}.
Arguments restyle {A CS}.
Arguments restyle_patch {A CS}.
Arguments patch_traces {A CS}.
Arguments given_size {A}.
