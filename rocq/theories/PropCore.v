(** C01-C09: core.py. *)
From Verif Require Import Base Dict ModelUnionFind ModelCore SpecCore SpecNet CoreLabels CoreProp.
Open Scope Z_scope.

(** A dataset of five points, three open sets, and a clustering that separates
    by parity, with noise label -1 for the point 4. *)
Definition demo_X : list nat := [0; 1; 2; 3; 4]%nat.
Definition demo_opens : gen (list nat) := mkgen [[0; 1; 2]; [2; 3]; [4; 0]]%nat None.
Definition demo_clust : clustering nat :=
  fun _ xs => Ok (map (fun x => if Nat.eqb x 4 then -1 else if Nat.even x then 0 else 1) xs).

(** C01. Position [i] of the result lists the names of exactly the clusters that
    contain [i]; different clusters have different names. *)
Theorem C01_labels_are_clusters :
  forall (S : Type) (X : list S) (opens : gen (list nat)) (clust : clustering S) out,
  mapper_labels X opens clust = Ok out ->
  length out = length X /\
  exists name, names_clusters X (yields opens) clust name /\
    forall i lbls, nth_error out i = Some lbls ->
    forall z, In z lbls <-> exists k l, in_cluster X (yields opens) clust k l i /\ z = name k l.
Proof. exact @labels_are_clusters. Qed.
Print Assumptions C01_labels_are_clusters.

(** C01. It succeeds when the cover and every clustering call succeed. *)
Theorem C01_labels_total :
  forall (S : Type) (X : list S) (opens : gen (list nat)) (clust : clustering S),
  stops opens = None ->
  (forall k, (k < length (yields opens))%nat -> job_succeeds X (yields opens) clust k) ->
  exists out, mapper_labels X opens clust = Ok out.
Proof. exact @labels_total. Qed.
Print Assumptions C01_labels_total.

(** C01. It fails with [e] exactly when the first failing job fails with [e], or
    no job fails and the cover ends with [e]. *)
Theorem C01_labels_fail :
  forall (S : Type) (X : list S) (opens : gen (list nat)) (clust : clustering S) e,
  mapper_labels X opens clust = Err e <->
  (exists k, job_fails X (yields opens) clust k e /\
     forall k', (k' < k)%nat -> job_succeeds X (yields opens) clust k') \/
  (stops opens = Some e /\
     forall k, (k < length (yields opens))%nat -> job_succeeds X (yields opens) clust k).
Proof. exact @labels_fail. Qed.
Print Assumptions C01_labels_fail.

Example C01_hypotheses_met :
  mapper_labels demo_X demo_opens demo_clust = Ok [[0; 4]; [1]; [0; 2]; [3]; []] /\
  in_cluster demo_X (yields demo_opens) demo_clust 1 0 2 /\
  in_cluster demo_X (yields demo_opens) demo_clust 2 0 0.
Proof.
  split; [vm_compute; reflexivity|]. split; (split; [lia|]).
  - exists [2; 3]%nat, [0; 1], 0%nat. split; [|auto]. split; [reflexivity|].
    exists [2; 3]%nat. split; [repeat constructor|reflexivity].
  - exists [4; 0]%nat, [-1; 0], 1%nat. split; [|auto]. split; [reflexivity|].
    exists [4; 0]%nat. split; [repeat constructor|reflexivity].
Qed.
Example C01_failure_met :
  mapper_labels demo_X (mkgen [[0]; [7]]%nat None) demo_clust = Err IndexError /\
  mapper_labels demo_X (mkgen [[0]]%nat (Some ValueError)) demo_clust = Err ValueError.
Proof. split; vm_compute; reflexivity. Qed.

(** C02. Strictly ascending when open sets have no repeated point. *)
Theorem C02_labels_ascending :
  forall (S : Type) (X : list S) (opens : gen (list nat)) (clust : clustering S) out,
  mapper_labels X opens clust = Ok out -> sets_nodup (yields opens) ->
  Forall (StronglySorted Z.lt) out.
Proof. exact @labels_ascending. Qed.
Print Assumptions C02_labels_ascending.

Example C02_hypotheses_met : sets_nodup (yields demo_opens).
Proof. repeat (constructor; [repeat constructor; simpl; intuition discriminate|]). constructor. Qed.

(** C02. The docstring's cross-point claim (core.py:81-83) is false. *)
Theorem C02_cross_point_order_refuted :
  exists (X : list nat) (opens : gen (list nat)) (clust : clustering nat) out,
    mapper_labels X opens clust = Ok out /\ sets_nodup (yields opens) /\
    ~ (forall i j li lj a b, (i < j)%nat -> nth_error out i = Some li -> nth_error out j = Some lj ->
         In a li -> In b lj -> a < b).
Proof.
  exists demo_X, demo_opens, demo_clust. eexists.
  split; [vm_compute; reflexivity|]. split; [exact C02_hypotheses_met|].
  intro H. specialize (H 0%nat 1%nat _ _ 4 1 ltac:(lia) eq_refl eq_refl). simpl in H. lia.
Qed.
Print Assumptions C02_cross_point_order_refuted.

(** C02. Without that proviso the order can fail: a repeated id gives a label twice. *)
Theorem C02_repeated_ids_refuted :
  exists (X : list nat) (opens : gen (list nat)) (clust : clustering nat) out,
    mapper_labels X opens clust = Ok out /\ ~ Forall (StronglySorted Z.lt) out.
Proof.
  exists [0]%nat, (mkgen [[0; 0]]%nat None), demo_clust. eexists.
  split; [vm_compute; reflexivity|]. intro H. inversion H as [|a b H1 H2]; subst.
  inversion H1 as [|c d H3 H4]; subst. inversion H4. lia.
Qed.
Print Assumptions C02_repeated_ids_refuted.

(** C03. One node per non-empty cluster, with the ascending list of its points
    and its size. *)
Theorem C03_nodes_are_clusters :
  forall (S : Type) (X : list S) (opens : gen (list nat)) (clust : clustering S) g,
  mapper_graph X opens clust = Ok g -> sets_nodup (yields opens) ->
  well_formed g /\
  exists name, names_clusters X (yields opens) clust name /\
    (forall z, has_node g z <-> exists k l, is_cluster X (yields opens) clust k l /\ z = name k l) /\
    (forall k l, is_cluster X (yields opens) clust k l ->
       exists ids, node_attr g (name k l) (length ids) ids /\ StronglySorted lt ids /\
         forall i, In i ids <-> in_cluster X (yields opens) clust k l i).
Proof. exact @graph_nodes_are_clusters. Qed.
Print Assumptions C03_nodes_are_clusters.

(** C03. The graph exists whenever the labels do, and fails as they do. *)
Theorem C03_graph_fails_as_labels :
  forall (S : Type) (X : list S) (opens : gen (list nat)) (clust : clustering S) e,
  mapper_graph X opens clust = Err e <-> mapper_labels X opens clust = Err e.
Proof. exact @graph_fails. Qed.
Print Assumptions C03_graph_fails_as_labels.

Example C03_hypotheses_met :
  mapper_graph demo_X demo_opens demo_clust =
  Ok (mkgraph [(0, (2, [0; 2])%nat); (4, (1, [0])%nat); (1, (1, [1])%nat); (2, (1, [2])%nat); (3, (1, [3])%nat)]
              [(0, [4; 2]); (4, [0]); (1, []); (2, [0]); (3, [])]).
Proof. vm_compute. reflexivity. Qed.

(** C04. Edges join exactly the different nodes that share a point. *)
Theorem C04_edges_share_points :
  forall (S : Type) (X : list S) (opens : gen (list nat)) (clust : clustering S) g,
  mapper_graph X opens clust = Ok g -> sets_nodup (yields opens) ->
  forall a b, adjacent g a b <->
    a <> b /\ exists na ia nb ib i, node_attr g a na ia /\ node_attr g b nb ib /\ In i ia /\ In i ib.
Proof. exact @graph_edges_share_points. Qed.
Print Assumptions C04_edges_share_points.

(** C04. Adjacency is symmetric and between nodes. *)
Theorem C04_edges_symmetric :
  forall (S : Type) (X : list S) (opens : gen (list nat)) (clust : clustering S) g,
  mapper_graph X opens clust = Ok g ->
  forall a b, adjacent g a b -> adjacent g b a /\ has_node g a /\ has_node g b.
Proof. exact @graph_edges_symmetric. Qed.
Print Assumptions C04_edges_symmetric.

(** C04. Different clusters of one open set share no point, so they are never adjacent. *)
Theorem C04_same_set_disjoint :
  forall (S : Type) (X : list S) (opens : gen (list nat)) (clust : clustering S),
  sets_nodup (yields opens) ->
  forall k l l' i, in_cluster X (yields opens) clust k l i -> in_cluster X (yields opens) clust k l' i -> l = l'.
Proof. exact @same_set_not_adjacent. Qed.
Print Assumptions C04_same_set_disjoint.

(** C05. Component labels and connectivity of the graph agree. *)
Theorem C05_components_match_graph :
  forall (S : Type) (X : list S) (opens : gen (list nat)) (clust : clustering S) out,
  mapper_labels X opens clust = Ok out ->
  exists g comps, mapper_graph X opens clust = Ok g /\ mapper_connected_components X opens clust = Ok comps /\
    length comps = length X /\
    forall i c, nth_error comps i = Some c ->
      (c = -1 <-> ~ exists z n ids, node_attr g z n ids /\ In i ids) /\
      forall z n ids, node_attr g z n ids -> In i ids ->
        has_node g c /\ connected g z c /\
        forall j c' z' n' ids', nth_error comps j = Some c' -> node_attr g z' n' ids' -> In j ids' ->
          (c = c' <-> connected g z z').
Proof. exact @components_of_graph. Qed.
Print Assumptions C05_components_match_graph.

Example C05_hypotheses_met :
  mapper_connected_components demo_X demo_opens demo_clust = Ok [0; 1; 0; 3; -1].
Proof. vm_compute. reflexivity. Qed.

(** C06. One entry per node, in node order, with [agg] of the node's points. *)
Theorem C06_aggregate_graph :
  forall (S : Type) (X : list S) (V : Type) (g : graph) (agg : list S -> res V) vals,
  well_formed g ->
  (aggregate_graph X g agg = Ok vals <->
   Forall2 (fun node entry => fst entry = fst node /\
        exists xs, Forall2 (fun j x => nth_error X j = Some x) (snd (snd node)) xs /\ agg xs = Ok (snd entry))
     (g_nodes g) vals).
Proof. exact @aggregate_correct. Qed.
Print Assumptions C06_aggregate_graph.

(** C06. On a Mapper graph of the same data it can only fail if [agg] does. *)
Theorem C06_aggregate_total :
  forall (S : Type) (X : list S) (opens : gen (list nat)) (clust : clustering S) (V : Type)
    (g : graph) (agg : list S -> res V),
  mapper_graph X opens clust = Ok g -> (forall xs, exists v, agg xs = Ok v) ->
  exists vals, aggregate_graph X g agg = Ok vals.
Proof. exact @aggregate_total. Qed.
Print Assumptions C06_aggregate_total.

Example C06_hypotheses_met :
  exists g, mapper_graph demo_X demo_opens demo_clust = Ok g /\
    aggregate_graph demo_X g (fun xs => Ok (list_sum xs)) = Ok [(0, 2%nat); (4, 0%nat); (1, 1%nat); (2, 2%nat); (3, 3%nat)].
Proof. eexists. split; vm_compute; reflexivity. Qed.

(** C07. The yielded sets are the search answers of greedily chosen centers. *)
Theorem C07_net_is_greedy :
  forall (S : Type) (fit : list S -> res (S -> res (list nat))) (X : list S) search,
  fit X = Ok search ->
  exists centers, greedy_net X search centers (yields (proximity_net fit X)).
Proof. exact @net_greedy. Qed.
Print Assumptions C07_net_is_greedy.

(** C07. If every point is in its own answer, every point is covered. *)
Theorem C07_net_covers :
  forall (S : Type) (fit : list S -> res (S -> res (list nat))) (X : list S) search,
  fit X = Ok search ->
  stops (proximity_net fit X) = None ->
  (forall i x s, nth_error X i = Some x -> search x = Ok s -> In i s) ->
  forall i, (i < length X)%nat -> exists s, In s (yields (proximity_net fit X)) /\ In i s.
Proof. exact @net_covers. Qed.
Print Assumptions C07_net_covers.

(** C07. It only stops early with an exception of the search. *)
Theorem C07_net_stops :
  forall (S : Type) (fit : list S -> res (S -> res (list nat))) (X : list S) search,
  fit X = Ok search ->
  forall e, stops (proximity_net fit X) = Some e -> exists j x, nth_error X j = Some x /\ search x = Err e.
Proof. exact @net_stops. Qed.
Print Assumptions C07_net_stops.

(** Non-vacuity: balls of radius 1 on the points 0, 1, 2, 5, 6 of a line. *)
Definition demo_search (X : list nat) (x : nat) : res (list nat) :=
  Ok (filter (fun i => match nth_error X i with
                       | Some y => Nat.leb (x - y + (y - x)) 1 | None => false end) (seq 0 (length X))).
Example C07_hypotheses_met :
  proximity_net (fun X => Ok (demo_search X)) [0; 1; 2; 5; 6]%nat =
  mkgen [[0; 1]; [1; 2]; [3; 4]]%nat None.
Proof. vm_compute. reflexivity. Qed.

(** C08. Open sets of the trivial cover. *)
Theorem C08_trivial_cover :
  forall (S : Type) (X : list S),
  stops (trivial_cover X) = None /\
  (X = [] -> yields (trivial_cover X) = []) /\
  (X <> [] -> yields (trivial_cover X) = [seq 0 (length X)]).
Proof. exact @trivial_cover_sets. Qed.
Print Assumptions C08_trivial_cover.

(** C08. The Mapper graph is the single node 0 with all points and no edge. *)
Theorem C08_trivial_graph :
  forall (S : Type) (X : list S), X <> [] ->
  mapper_graph X (trivial_cover X) (fun _ xs => trivial_clustering xs) =
  Ok (mkgraph [(0, (length X, seq 0 (length X)))] [(0, [])]).
Proof. exact @trivial_graph. Qed.
Print Assumptions C08_trivial_graph.

Theorem C08_trivial_graph_empty :
  forall (S : Type),
  mapper_graph ([] : list S) (trivial_cover ([] : list S)) (fun _ xs => trivial_clustering xs) = Ok empty_graph.
Proof. exact @trivial_graph_empty. Qed.
Print Assumptions C08_trivial_graph_empty.

Example C08_hypotheses_met :
  mapper_graph [10; 20; 30]%nat (trivial_cover [10; 20; 30]%nat) (fun _ xs => trivial_clustering xs) =
  Ok (mkgraph [(0, (3, [0; 1; 2])%nat)] [(0, [])]).
Proof. vm_compute. reflexivity. Qed.

(** C09. FailSafeClustering, case by case. *)
Theorem C09_failsafe :
  forall (S : Type) (c : list S -> res (list Z)) (X : list S),
  (forall l, c X = Ok l -> failsafe_clustering (Some c) X = Ok l) /\
  (c X = Err ValueError -> exists l, failsafe_clustering (Some c) X = Ok l /\ length l = length X /\ Forall (eq 0) l) /\
  (forall e, e <> ValueError -> c X = Err e -> failsafe_clustering (Some c) X = Err e) /\
  failsafe_clustering None X = trivial_clustering X.
Proof. exact @failsafe_cases. Qed.
Print Assumptions C09_failsafe.

Example C09_hypotheses_met :
  failsafe_clustering (Some (fun _ : list nat => Err ValueError)) [5; 6]%nat = Ok [0; 0] /\
  failsafe_clustering (Some (fun _ : list nat => Err KeyError)) [5; 6]%nat = Err KeyError.
Proof. split; reflexivity. Qed.
