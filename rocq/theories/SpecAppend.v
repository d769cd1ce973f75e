(** Specification vocabulary: covers and graphs of a dataset with further rows at the end. *)
From Verif Require Import Base ModelCore SpecCore.
Open Scope nat_scope.

(** The sets [opens] of the first [n] points are found in [opens'], [off] positions later, with
    the same old points and possibly new ones. *)
Definition grows (n off : nat) (opens opens' : list (list nat)) : Prop :=
  forall k s, nth_error opens k = Some s ->
    exists s', nth_error opens' (off + k) = Some s' /\ forall i, In i s <-> In i s' /\ i < n.

(** The nodes and edges of [g] are found in [g'], with numbers increased by [off]; the nodes have the same
    old points. *)
Definition keeps (n off : nat) (g g' : graph) : Prop :=
  (forall z size ids, node_attr g z size ids ->
     exists size' ids', node_attr g' (Z.of_nat off + z)%Z size' ids' /\ forall i, In i ids <-> In i ids' /\ i < n) /\
  forall a b, adjacent g a b -> adjacent g' (Z.of_nat off + a)%Z (Z.of_nat off + b)%Z.
