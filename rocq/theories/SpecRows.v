(** The rows of a dataset in another order. [s] is the list of the old positions,
    in the new order, see [reordered]. *)
From Coq Require Import Permutation.
From Verif Require Import Base ModelCore SpecCore SpecTuning.
Open Scope Z_scope.

(** The new ids [ids'] are those of the same points as the old ids [ids]. *)
Definition same_points (s : list nat) (ids ids' : list nat) : Prop :=
  Permutation (map Some ids) (map (nth_error s) ids').

(** The same sets of points, in any order. *)
Definition same_cover (s : list nat) (opens opens' : gen (list nat)) : Prop :=
  stops opens = stops opens' /\
  exists sets, Permutation (yields opens') sets /\ Forall2 (same_points s) (yields opens) sets.

(** The clustering does not count its calls. *)
Definition call_free {S : Type} (clust : clustering S) : Prop := forall k k' xs, clust k xs = clust k' xs.

(** The same graph on the same points, except for the names of nodes. *)
Definition same_graph_of (s : list nat) (g g' : graph) : Prop :=
  exists f : Z -> Z,
    (forall z, has_node g z -> has_node g' (f z)) /\
    (forall z', has_node g' z' -> exists z, has_node g z /\ z' = f z) /\
    (forall a b, has_node g a -> has_node g b -> f a = f b -> a = b) /\
    (forall z n ids n' ids', node_attr g z n ids -> node_attr g' (f z) n' ids' -> n = n' /\ same_points s ids ids') /\
    (forall a b, has_node g a -> has_node g b -> (adjacent g a b <-> adjacent g' (f a) (f b))).

(** The same partition of the points; -1 marks points left out. *)
Definition same_partition_of (s : list nat) (comps comps' : list Z) : Prop :=
  length comps = length comps' /\
  (forall a i c c', nth_error s a = Some i -> nth_error comps i = Some c -> nth_error comps' a = Some c' -> (c = -1 <-> c' = -1)) /\
  forall a b i j c c' d d', nth_error s a = Some i -> nth_error s b = Some j ->
    nth_error comps i = Some c -> nth_error comps' a = Some c' ->
    nth_error comps j = Some d -> nth_error comps' b = Some d' -> (c = d <-> c' = d').
