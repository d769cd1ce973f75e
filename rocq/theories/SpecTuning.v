(** Specification vocabulary for parameters that should not matter to the result. *)
From Coq Require Import Permutation.
From Verif Require Import Base ModelCore SpecCore.
Open Scope Z_scope.

(** Two runs of a cover give the same sets, each in any order. *)
Definition same_sets (g g' : gen (list nat)) : Prop :=
  stops g = stops g' /\ Forall2 (@Permutation nat) (yields g) (yields g').

(** Positions [p] and [q] have the same label, not noise. *)
Definition together (lbls : list Z) (p q : nat) : Prop :=
  exists l, 0 <= l /\ nth_error lbls p = Some l /\ nth_error lbls q = Some l.

(** The list [l'] is [l] in the order given by the positions [s]. *)
Definition reordered {A : Type} (s : list nat) (l l' : list A) : Prop :=
  Permutation s (seq 0 (length l)) /\ map (nth_error l) s = map Some l'.

(** Given the same points in another order, the clustering forms the same clusters
    and leaves out the same points, under any names. *)
Definition order_free {S : Type} (clust : clustering S) : Prop :=
  forall k s xs xs' lbls, reordered s xs xs' -> clust k xs = Ok lbls ->
    exists lbls', clust k xs' = Ok lbls' /\
      forall a b p q, nth_error s a = Some p -> nth_error s b = Some q ->
        (together lbls p q <-> together lbls' a b).

(** The same graph except for the names of its nodes. *)
Definition same_graph (g g' : graph) : Prop :=
  exists f : Z -> Z,
    (forall z, has_node g z -> has_node g' (f z)) /\
    (forall z', has_node g' z' -> exists z, has_node g z /\ z' = f z) /\
    (forall a b, has_node g a -> has_node g b -> f a = f b -> a = b) /\
    (forall z n ids, has_node g z -> (node_attr g z n ids <-> node_attr g' (f z) n ids)) /\
    (forall a b, has_node g a -> has_node g b -> (adjacent g a b <-> adjacent g' (f a) (f b))).

(** The same partition of the points; -1 marks points left out. *)
Definition same_partition (comps comps' : list Z) : Prop :=
  length comps = length comps' /\
  (forall i c c', nth_error comps i = Some c -> nth_error comps' i = Some c' -> (c = -1 <-> c' = -1)) /\
  forall i j c c' d d', nth_error comps i = Some c -> nth_error comps' i = Some c' ->
    nth_error comps j = Some d -> nth_error comps' j = Some d' -> (c = d <-> c' = d').
