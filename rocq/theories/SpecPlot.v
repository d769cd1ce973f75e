(** Vocabulary for the properties of plots: how to read a figure. *)
From Coq Require Import String.
From Verif Require Import Base Dict ModelArith ModelCore SpecCore ModelDraw ModelPlotly.
Open Scope nat_scope.

(** [es] lists every edge of the graph exactly once, in one direction. *)
Definition lists_edges (g : graph) (es : list (Z * Z)) : Prop :=
  NoDup es /\
  (forall u v, adjacent g u v <-> In (u, v) es \/ In (v, u) es) /\
  (forall u v, In (u, v) es -> In (v, u) es -> u = v).

Definition symmetric_graph (g : graph) : Prop :=
  forall u v, adjacent g u v -> adjacent g v u.

(** [M] is the size of the largest node. *)
Definition largest (g : graph) (M : nat) : Prop :=
  (exists z ids, node_attr g z M ids) /\ forall z n ids, node_attr g z n ids -> n <= M.

Section Figure.
Context {A : arith} {CS : Type}.
Notation num := (num A).

(** The [i]-th entry of an array attribute of a trace. *)
Definition shown (t : attrs A CS) (path : string) (i : nat) : option num :=
  match attr t path with ANums l => nth_error l i | _ => None end.
Definition tooltip (t : attrs A CS) (i : nat) : option (num * Z * nat) :=
  match attr t "text" with ATexts l => nth_error l i | _ => None end.
(** The [i]-th entry of the coordinates of a line: [Some None] is a gap. *)
Definition path_point (t : attrs A CS) (axis : string) (i : nat) : option (option num) :=
  match attr t axis with APath l => nth_error l i | _ => None end.
Definition array_length (t : attrs A CS) (path : string) : option nat :=
  match attr t path with
  | ANums l => Some (length l) | APath l => Some (length l) | ATexts l => Some (length l)
  | _ => None
  end.

Definition has_pos (m : mapper_plot A) (n : Z) (p : list num) : Prop := dget Z.eqb (mp_pos m) n = Some p.

(** Every node has a position with [dim] coordinates. *)
Definition placed (m : mapper_plot A) : Prop :=
  forall n, has_node (mp_graph m) n -> exists p, has_pos m n p /\ length p = mp_dim m.

(** [c] is the aggregated colour of a node with the given points. *)
Definition node_color (colors : list num) (agg : agg_fn A) (ids : list nat) (c : num) : Prop :=
  exists xs, Forall2 (fun j x => nth_error colors j = Some x) ids xs /\ agg xs = Ok c.

(** The [i]-th column of a 2-d colour array. *)
Definition is_column (c : colors2 A) (i : nat) (col : list num) : Prop :=
  i < c_cols c /\ Forall2 (fun row x => nth_error row i = Some x) (c_rows c) col.

(** Two lists of traces that read the same everywhere. *)
Definition same_traces (ts ts' : list (attrs A CS)) : Prop :=
  Forall2 (fun t t' => forall path, attr t path = attr t' path) ts ts'.
End Figure.

(** [lt] is the strict part of a total order on the values satisfying [P]. *)
Definition strict_total_on {T : Type} (lt : T -> T -> bool) (P : T -> Prop) : Prop :=
  (forall a b, P a -> P b -> lt a b = true -> lt b a = false) /\
  (forall a b c, P a -> P b -> P c -> lt a b = false -> lt b c = false -> lt a c = false).

(** The settings of a figure and the trace attributes belonging to each. *)
Inductive setting : Type := STitle | SSize | SColors | SScale.
Definition belongs (s : setting) (path : string) : Prop :=
  match s with
  | STitle => exists key, path = String.append "marker.colorbar." key
  | SSize => In path ["marker.sizeref"; "marker.sizemin"; "marker.sizemode"]%string
  | SColors => In path ["text"; "marker.opacity"; "marker.color"; "marker.cmin"; "marker.cmax";
                        "line.color"; "line.cmin"; "line.cmax"]%string
  | SScale => In path ["marker.colorscale"; "marker.line.colorscale"; "line.colorscale"]%string
  end.

(** The settings an update is asked to change. *)
Definition settings_given {A : arith} (ns : size_arg A) (c : option (colors_arg A)) (ti : title_arg)
    (agg : option (agg_fn A)) (cm : cmap_arg) (s : setting) : Prop :=
  match s with
  | STitle => ti <> TNone
  | SSize => ns <> NSNone
  | SColors => c <> None /\ agg <> None
  | SScale => cm <> CMNone
  end.
