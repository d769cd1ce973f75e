(** Model of src/tdamapper/core.py (without the parallel runner, see ModelParallel).

    Points of the dataset and lens values are arbitrary types. Ids are [nat]:
    every cover of the library yields non-negative ids. Node and cluster labels
    are [Z]. *)
From Verif Require Import Base Dict ModelUnionFind.
Open Scope Z_scope.

(** A Python generator that runs to completion: the values yielded in order and
    the exception, if any, that ends it. *)
Record gen (A : Type) : Type := mkgen { yields : list A; stops : option exn }.
Arguments mkgen {A}.
Arguments yields {A}.
Arguments stops {A}.

Section Core.
Context {S : Type}.

(** [clust k xs] is [clust.fit(xs).labels_] for the clone made for the [k]-th
    open set (core.py:97, 102). Indexing by [k] lets a stateful or randomised
    clustering answer differently on each call. *)
Definition clustering : Type := nat -> list S -> res (list Z).

(** core.py:94-98 [_run_clustering] and the argument [[X[j] for j in local_ids]]
    built at core.py:102. *)
Definition run_clustering (X : list S) (clust : clustering) (k : nat) (local_ids : list nat)
  : res (list nat * list Z) :=
  do xs <- map_res (rd X) local_ids;
  do lbls <- clust k xs;
  Ok (local_ids, lbls).

(** core.py:100-105 with [n_jobs = 1]: the jobs in order. If [cover.apply] raises
    after some open sets, those sets have been clustered first. *)
Fixpoint run_jobs (X : list S) (clust : clustering) (k : nat) (opens : list (list nat))
    (after : option exn) : res (list (list nat * list Z)) :=
  match opens with
  | [] => match after with None => Ok [] | Some e => Err e end
  | ids :: opens' =>
      do p <- run_clustering X clust k ids;
      do ps <- run_jobs X clust (Datatypes.S k) opens' after;
      Ok (p :: ps)
  end.

(** core.py:110-114, body of the inner loop; state: ([itm_lbls], [max_local_lbl]). *)
Definition label_step (max_lbl : Z) (p : nat * Z) (st : list (list Z) * Z)
  : res (list (list Z) * Z) :=
  let '(local_id, local_lbl) := p in
  let '(itm_lbls, max_local_lbl) := st in
  do itm1 <- (if 0 <=? local_lbl then
                do old <- rd itm_lbls local_id;
                wr itm_lbls local_id (old ++ [max_lbl + local_lbl])
              else Ok itm_lbls);
  Ok (itm1, if max_local_lbl <? local_lbl then local_lbl else max_local_lbl).

(** core.py:108-115, body of the outer loop; state: ([itm_lbls], [max_lbl]).
    [zip] is [combine]: it stops at the shorter list. *)
Definition set_step (p : list nat * list Z) (st : list (list Z) * Z) : res (list (list Z) * Z) :=
  let '(local_ids, local_lbls) := p in
  let '(itm_lbls, max_lbl) := st in
  do r <- for_each (combine local_ids local_lbls) (label_step max_lbl) (itm_lbls, 0);
  let '(itm1, max_local_lbl) := r in
  Ok (itm1, max_lbl + (max_local_lbl + 1)).

(** core.py:106-116. *)
Definition assign_labels (n : nat) (parts : list (list nat * list Z)) : res (list (list Z)) :=
  do r <- for_each parts set_step (repeat [] n, 0);
  Ok (fst r).

(** core.py:61-116 [mapper_labels]; [opens] is what [cover.apply(y)] generates. *)
Definition mapper_labels (X : list S) (opens : gen (list nat)) (clust : clustering)
  : res (list (list Z)) :=
  do parts <- run_jobs X clust 0 (yields opens) (stops opens);
  assign_labels (length X) parts.

(** core.py:151-153: the set of all labels. Python's [set] has an arbitrary
    iteration order; [UnionFind] only uses it to fill dictionaries. *)
Definition label_values (itm_lbls : list (list Z)) : list Z := nodup Z.eq_dec (concat itm_lbls).

(** core.py:157-158 [for first, second in zip(lbls, lbls[1:]): uf.union(first, second)]. *)
Definition union_pairs (lbls : list Z) (u : uf Z) : res (uf Z) :=
  for_each (combine lbls (tl lbls))
    (fun p u => do r <- uf_union Z.eqb u (fst p) (snd p); Ok (snd r)) u.

(** core.py:155-158; the guard [len(lbls) > 1] is kept. *)
Definition union_all (itm_lbls : list (list Z)) (u : uf Z) : res (uf Z) :=
  for_each itm_lbls
    (fun lbls u => if (1 <? length lbls)%nat then union_pairs lbls u else Ok u) u.

(** core.py:159-163: [find] also compresses paths, so the structure is threaded. *)
Fixpoint assign_roots (itm_lbls : list (list Z)) (u : uf Z) : res (list Z) :=
  match itm_lbls with
  | [] => Ok []
  | lbls :: rest =>
      match lbls with
      | [] => do out <- assign_roots rest u; Ok (-1 :: out)
      | l0 :: _ =>
          do r <- uf_find Z.eqb u l0;
          do out <- assign_roots rest (snd r);
          Ok (fst r :: out)
      end
  end.

(** core.py:119-164 [mapper_connected_components]. The final loop writes
    [labels[i]] for every [i] of [itm_lbls], which has the length of [X]. *)
Definition mapper_connected_components (X : list S) (opens : gen (list nat)) (clust : clustering)
  : res (list Z) :=
  do itm_lbls <- mapper_labels X opens clust;
  do u <- union_all itm_lbls (uf_init Z.eqb (Reusable (label_values itm_lbls)));
  assign_roots itm_lbls u.

(** The parts of [networkx.Graph] that core.py uses: node attributes [size] and
    [ids] (core.py:43-45) and adjacency, both in insertion order. *)
Record graph : Type := mkgraph {
  g_nodes : list (Z * (nat * list nat));
  g_adj : list (Z * list Z) }.

Definition empty_graph : graph := mkgraph [] [].

(** core.py:201-204, one point [n] and one of its labels. *)
Definition add_point (n : nat) (lbl : Z) (g : graph) : res graph :=
  let g1 := if dmem Z.eqb (g_nodes g) lbl then g
            else mkgraph (dset Z.eqb (g_nodes g) lbl (0%nat, []))
                         (dset Z.eqb (g_adj g) lbl []) in
  do a <- dget_res Z.eqb (g_nodes g1) lbl;
  let '(size, ids) := a in
  Ok (mkgraph (dset Z.eqb (g_nodes g1) lbl (Datatypes.S size, ids ++ [n])) (g_adj g1)).

(** core.py:199-204. *)
Fixpoint add_points (n : nat) (itm_lbls : list (list Z)) (g : graph) : res graph :=
  match itm_lbls with
  | [] => Ok g
  | lbls :: rest =>
      do g1 <- for_each lbls (add_point n) g;
      add_points (Datatypes.S n) rest g1
  end.

(** [graph.add_edge(u, v)] for existing nodes: each becomes a neighbour of the
    other; a self loop adds one entry. *)
Definition add_edge (u v : Z) (g : graph) : res graph :=
  do au <- dget_res Z.eqb (g_adj g) u;
  let adj1 := dset Z.eqb (g_adj g) u (if existsb (Z.eqb v) au then au else au ++ [v]) in
  do av <- dget_res Z.eqb adj1 v;
  Ok (mkgraph (g_nodes g) (dset Z.eqb adj1 v (if existsb (Z.eqb u) av then av else av ++ [u]))).

(** core.py:211-212. *)
Definition link (source_lbl target_lbl : Z) (g : graph) : res graph :=
  do a <- dget_res Z.eqb (g_adj g) source_lbl;
  if existsb (Z.eqb target_lbl) a then Ok g else add_edge source_lbl target_lbl g.

(** core.py:206-212: all pairs [i < j] of the labels of one point. *)
Fixpoint link_all (lbls : list Z) (g : graph) : res graph :=
  match lbls with
  | [] => Ok g
  | source :: rest =>
      do g1 <- for_each rest (link source) g;
      link_all rest g1
  end.

(** core.py:198-213, from labels to graph. *)
Definition graph_of_labels (itm_lbls : list (list Z)) : res graph :=
  do g <- add_points 0 itm_lbls empty_graph;
  for_each itm_lbls link_all g.

(** core.py:167-213 [mapper_graph]. *)
Definition mapper_graph (X : list S) (opens : gen (list nat)) (clust : clustering) : res graph :=
  do itm_lbls <- mapper_labels X opens clust;
  graph_of_labels itm_lbls.

(** core.py:216-242 [aggregate_graph]; [agg] may raise. *)
Definition aggregate_graph {V : Type} (X : list S) (g : graph) (agg : list S -> res V)
  : res (list (Z * V)) :=
  for_each (map fst (g_nodes g))
    (fun node_id agg_values =>
       do a <- dget_res Z.eqb (g_nodes g) node_id;
       do node_values <- map_res (rd X) (snd a);
       do agg_value <- agg node_values;
       Ok (dset Z.eqb agg_values node_id agg_value))
    [].

(** core.py:265-270: the loop of [proximity_net] from position [i]. *)
Fixpoint net_loop (search : S -> res (list nat)) (i : nat) (xs : list S) (covered : list nat)
  : gen (list nat) :=
  match xs with
  | [] => mkgen [] None
  | xi :: xs' =>
      if existsb (Nat.eqb i) covered then net_loop search (Datatypes.S i) xs' covered
      else
        match search xi with
        | Err e => mkgen [] (Some e)
        | Ok neigh_ids =>
            let rest := net_loop search (Datatypes.S i) xs' (neigh_ids ++ covered) in
            match neigh_ids with
            | [] => rest
            | _ => mkgen (neigh_ids :: yields rest) (stops rest)
            end
        end
  end.

(** core.py:245-270 [proximity_net]. [fit X] is [search.fit(X)], which yields
    the function [search.search] of the fitted object. *)
Definition proximity_net (fit : list S -> res (S -> res (list nat))) (X : list S) : gen (list nat) :=
  match fit X with
  | Err e => mkgen [] (Some e)
  | Ok search => net_loop search 0 X []
  end.

(** core.py:282-299 [TrivialCover.fit], which does nothing, and [apply]. *)
Definition trivial_cover (X : list S) : gen (list nat) :=
  if (0 <? length X)%nat then mkgen [seq 0 (length X)] None else mkgen [] None.

(** core.py:368-379 [TrivialClustering.fit] followed by [labels_]. *)
Definition trivial_clustering (X : list S) : res (list Z) := Ok (map (fun _ => 0) X).

(** core.py:326-350 [FailSafeClustering.fit] followed by [labels_]. The delegate
    is [None] or a clustering [c], where [c xs] is [fit(xs)] followed by reading
    [labels_], both inside the [try]. Logging is not modelled. *)
Definition failsafe_clustering (delegate : option (list S -> res (list Z))) (X : list S)
  : res (list Z) :=
  let c := match delegate with None => trivial_clustering | Some c => c end in
  match c X with
  | Ok l => Ok l
  | Err ValueError => Ok (map (fun _ => 0) X)
  | Err e => Err e
  end.

End Core.
Arguments clustering : clear implicits.
