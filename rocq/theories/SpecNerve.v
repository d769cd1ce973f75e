(** Specification vocabulary: maps between Mapper graphs, and the nerve of a cover. *)
From Verif Require Import Base ModelCore SpecCore.
Open Scope Z_scope.

(** Every cluster of the first cover and clustering lies in one of the second. *)
Definition refines {S : Type} (X : list S) (opens : list (list nat)) (clust : clustering S)
    (opens' : list (list nat)) (clust' : clustering S) : Prop :=
  forall k l, is_cluster X opens clust k l ->
    exists k' l', forall i, in_cluster X opens clust k l i -> in_cluster X opens' clust' k' l' i.

(** On every set of the cover, [clust] splits the clusters of [clust'] further, and
    may leave out points. *)
Definition finer {S : Type} (X : list S) (opens : list (list nat)) (clust clust' : clustering S) : Prop :=
  forall k l i j, in_cluster X opens clust k l i -> in_cluster X opens clust k l j ->
    exists l', in_cluster X opens clust' k l' i /\ in_cluster X opens clust' k l' j.

(** [clust] leaves out no more points than [clust']. *)
Definition no_more_noise {S : Type} (X : list S) (opens : list (list nat)) (clust clust' : clustering S) : Prop :=
  forall k l' i, in_cluster X opens clust' k l' i -> exists l, in_cluster X opens clust k l i.

(** [f] maps the nodes of [g] to nodes of [g'] with at least the same points. *)
Definition maps_nodes (f : Z -> Z) (g g' : graph) : Prop :=
  forall z n ids, node_attr g z n ids -> exists n' ids', node_attr g' (f z) n' ids' /\ incl ids ids'.

(** Components of [comps] are split at least as far as those of [comps']; [-1] stands for points in no cluster. *)
Definition splits_components (comps comps' : list Z) : Prop :=
  forall i j c c' d', nth_error comps i = Some c -> nth_error comps j = Some c -> c <> -1 ->
    nth_error comps' i = Some c' -> nth_error comps' j = Some d' -> c' = d' /\ c' <> -1.

(** The graph whose node [k] is the [k]-th set, and whose edges join the sets with common points. *)
Definition is_nerve (opens : list (list nat)) (g : graph) : Prop :=
  (forall z, has_node g z <-> exists k s, z = Z.of_nat k /\ nth_error opens k = Some s) /\
  (forall k s, nth_error opens k = Some s ->
     exists ids, node_attr g (Z.of_nat k) (length s) ids /\ StronglySorted lt ids /\ forall i, In i ids <-> In i s) /\
  forall k k', adjacent g (Z.of_nat k) (Z.of_nat k') <->
    k <> k' /\ exists s s' i, nth_error opens k = Some s /\ nth_error opens k' = Some s' /\ In i s /\ In i s'.
