(** Specification vocabulary: how densely the balls of a cover can lie. *)
From Coq Require Import Reals.
From Verif Require Import Base ModelCore SpecCore SpecNet SpecCubical.
Open Scope R_scope.

(** Distances on rows of [m] numbers that are at least the difference in every column, and
    less than [K * b] if all these differences are less than [b]. *)
Definition comparable (m K : nat) (d : list R -> list R -> R) : Prop :=
  forall x y, length x = m -> length y = m ->
    (forall j, (j < m)%nat -> Rabs (coord x j - coord y j) <= d x y) /\
    forall b, 0 < b -> (forall j, (j < m)%nat -> Rabs (coord x j - coord y j) < b) -> d x y < INR K * b.

(** The nets [proximity_net] yields: as [greedy_net], and a point is only passed over if it is in an
    earlier set, or if nothing is found around it. *)
Definition first_come {S : Type} (X : list S) (search : S -> res (list nat)) (centers : list nat) (sets : list (list nat)) : Prop :=
  greedy_net X search centers sets /\
  forall i x, nth_error X i = Some x ->
    In i centers \/ search x = Ok [] \/
    exists k c s, nth_error centers k = Some c /\ nth_error sets k = Some s /\ (c < i)%nat /\ In i s.

(** The number of entries in the adjacency lists of a graph: twice the number of its edges. *)
Definition ends (g : graph) : nat := length (flat_map snd (g_adj g)).
