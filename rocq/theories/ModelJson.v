(** The download of the graph and the table of statistics in the former web application
    (app/streamlit_app.py). *)
From Coq Require Import String Ascii List ZArith DecimalString.
From Verif Require Import Base Dict ModelArith ModelCore ModelDraw ModelApp.
Import ListNotations.
Open Scope list_scope. Open Scope nat_scope.

(** The values that are written. *)
Inductive json : Type := JBool (b : bool) | JInt (z : Z) | JList (l : list json) | JObj (l : list (string * json)).

(** [json.dumps] with its default separators. Keys are written as they are: those used here are plain
    letters. *)
Definition text : Type := list ascii.
Definition la : string -> text := list_ascii_of_string.
Definition key_text (k : string) : text := la """" ++ la k ++ la """: ".
Definition join (l : list text) : text :=
  match l with [] => [] | x :: r => x ++ flat_map (fun y => la ", " ++ y) r end.
Fixpoint dumps (j : json) : text :=
  match j with
  | JBool b => la (if b then "true" else "false")
  | JInt z => la (NilZero.string_of_int (Z.to_int z))
  | JList l => la "[" ++ join (map dumps l) ++ la "]"
  | JObj l => la "{" ++ join (map (fun kv => key_text (fst kv) ++ dumps (snd kv)) l) ++ la "}"
  end.

(** [networkx.adjacency_data(graph)] for graphs without attributes of their own or of edges; "size" and
    "ids" are the attributes of nodes (core.py:43-45, 202). *)
Definition node_data (n : Z) (a : nat * list nat) : json :=
  JObj [("size", JInt (Z.of_nat (fst a))); ("ids", JList (map (fun i => JInt (Z.of_nat i)) (snd a))); ("id", JInt n)]%string.
Definition adjacency_data (g : graph) : res json :=
  do ns <- map_res (fun x => do a <- dget_res Z.eqb (g_nodes g) (fst x); Ok (node_data (fst x) a)) (g_adj g);
  Ok (JObj [("directed", JBool false); ("multigraph", JBool false); ("graph", JList []); ("nodes", JList ns);
            ("adjacency", JList (map (fun x => JList (map (fun n => JObj [("id", JInt n)]) (snd x))) (g_adj g)))]%string).
(** streamlit_app.py:915-919 [mapper_download_button]: the text that is compressed and offered. *)
Definition download_text (g : graph) : res text :=
  do j <- adjacency_data g;
  Ok (dumps j).

(** streamlit_app.py:838-858 [data_summary_section]: the table of statistics. [components] is
    [nx.number_connected_components]. *)
Definition stats {A : arith} (components : graph -> nat) (df_X df_y : frame A) (g : graph) : list (string * nat) :=
  [("Samples", fr_rows df_X); ("Input Feats", length (fr_cols df_X)); ("Target Feats", length (fr_cols df_y));
   ("Nodes", length (nodes g)); ("Edges", length (edges g)); ("Conn. Comp.", components g)]%string.
