(** The file written by [plot_pyvis] (plot_pyvis.py:31-181). *)
From Coq Require Import String.
From Verif Require Import Base ModelArith ModelCore ModelDraw.

(** *** Files

    A directory tree is a map from paths to contents. The operating system may
    refuse to open a file, and may stop a write after some characters (a full
    disk; also text that has no encoding, of which nothing is written). *)
Definition files : Type := string -> option string.
Definition put (fs : files) (path : string) (c : string) : files :=
  fun p => if (p =? path)%string then Some c else fs p.
Record system : Type := mksys {
  (** The exception of [open(path, "w")], if it is refused. *)
  sys_open : string -> option exn;
  (** How a write ends: [None], or the number of characters on the disk and the exception. *)
  sys_write : string -> string -> option (nat * exn) }.

(** [with open(path, "w", encoding="utf-8") as file: file.write(text)]:
    opening for writing empties the file or creates it. *)
Definition write_file (s : system) (path text : string) (fs : files) : files * res unit :=
  match sys_open s path with
  | Some e => (fs, Err e)
  | None =>
      let fs := put fs path EmptyString in
      match sys_write s path text with
      | None => (put fs path text, Ok tt)
      | Some (n, e) => (put fs path (substring 0 n text), Err e)
      end
  end.

Section Page.
Variable A : arith.
Notation num := (num A).

(** plot_pyvis.py:31-78 [_colorbar]: the settings that vary; the colour scale is
    given twice, for the markers and for their lines. *)
Record bar : Type := mkbar {
  bar_height : Z; bar_cmap : string; bar_cmin : num; bar_cmax : num; bar_title : option string }.
Definition colorbar (height : Z) (cmap : string) (cmin cmax : num) (title : option string) : bar :=
  mkbar height cmap cmin cmax title.

(** pyvis's [Network.generate_html], with the window size and the drawn data
    (plot_pyvis.py:193-202), and plotly's [to_html]. *)
Variable network_html : Z -> Z -> network A -> res string.
Variable bar_html : bar -> res string.

(** plot_pyvis.py:81-138 [_combine]; the fixed parts of the page are parameters. *)
Variables page_start page_middle page_end : string.
Definition combine (width height : Z) (net : network A) (b : bar) : res string :=
  do n <- network_html width height net;
  do c <- bar_html b;
  Ok (page_start ++ n ++ page_middle ++ c ++ page_end)%string.

Variable root : num -> num.
Variable round_int : num -> Z.
Variables pinf ninf : num.
Variable CS : Type.
Variable get_colorscale : string -> res CS.

(** plot_pyvis.py:141-181 [plot_pyvis], and plot.py:231-269, which calls it. *)
Definition plot_pyvis (s : system) (m : mapper_plot A) (output_file : string) (colors : list num)
    (node_size : num) (agg : list num -> res num) (title : option string) (width height : Z) (cmap : string)
    (fs : files) : files * res unit :=
  match (do net <- compute_net A root round_int pinf ninf CS get_colorscale m colors node_size agg width height cmap;
         combine width height net (colorbar height cmap (net_cmin net) (net_cmax net) title)) with
  | Err e => (fs, Err e)
  | Ok html => write_file s output_file html fs
  end.
End Page.
Arguments mkbar {A}.
Arguments bar_height {A}.
Arguments bar_cmap {A}.
Arguments bar_cmin {A}.
Arguments bar_cmax {A}.
Arguments bar_title {A}.
