(** Specification vocabulary for whole Mapper runs. *)
From Verif Require Import Base ModelCore SpecCore SpecNet SpecCover.
Open Scope Z_scope.

(** The clustering answers every non-empty call on points of [X], with a label for
    each point, and leaves no point out as noise. *)
Definition labels_every_point {S : Type} (X : list S) (clust : clustering S) : Prop :=
  forall k xs, xs <> [] -> incl xs X ->
    exists lbls, clust k xs = Ok lbls /\ length lbls = length xs /\ Forall (fun l => 0 <= l) lbls.

(** The cover ends without an error, its sets are non-empty, list points of the dataset
    without repetition, and together cover it. *)
Definition proper_cover (n : nat) (opens : gen (list nat)) : Prop :=
  stops opens = None /\ covers n (yields opens) /\
  forall s, In s (yields opens) -> s <> [] /\ NoDup s /\ forall i, In i s -> (i < n)%nat.

(** Mapper succeeds and every point has a label, is in a node, and has a component. *)
Definition no_point_lost {S : Type} (X : list S) (opens : gen (list nat)) (clust : clustering S) : Prop :=
  exists out g comps,
    mapper_labels X opens clust = Ok out /\ mapper_graph X opens clust = Ok g /\
    mapper_connected_components X opens clust = Ok comps /\
    length out = length X /\ length comps = length X /\
    Forall (fun lbls => lbls <> []) out /\ Forall (fun c => has_node g c) comps /\
    forall i, (i < length X)%nat -> exists z n ids, node_attr g z n ids /\ In i ids.
