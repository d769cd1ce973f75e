(** Specification vocabulary for the Mapper graph, independent of how labels
    are computed. *)
From Coq Require Export Sorted Relations.
From Verif Require Import Base ModelCore.
Open Scope Z_scope.

(** The local labelling of the [k]-th open set. *)
Definition local_labels {S : Type} (X : list S) (opens : list (list nat)) (clust : clustering S)
    (k : nat) (ids : list nat) (lbls : list Z) : Prop :=
  nth_error opens k = Some ids /\
  exists xs, Forall2 (fun j x => nth_error X j = Some x) ids xs /\ clust k xs = Ok lbls.

(** Point [i] belongs to the cluster with local label [l >= 0] of the [k]-th open set. *)
Definition in_cluster {S : Type} (X : list S) (opens : list (list nat)) (clust : clustering S)
    (k : nat) (l : Z) (i : nat) : Prop :=
  0 <= l /\ exists ids lbls j, local_labels X opens clust k ids lbls /\
    nth_error ids j = Some i /\ nth_error lbls j = Some l.

(** [(k, l)] is a non-empty cluster. *)
Definition is_cluster {S : Type} (X : list S) opens (clust : clustering S) (k : nat) (l : Z) : Prop :=
  exists i, in_cluster X opens clust k l i.

(** [name] gives different clusters different names, all non-negative. *)
Definition names_clusters {S : Type} (X : list S) opens (clust : clustering S)
    (name : nat -> Z -> Z) : Prop :=
  (forall k l, is_cluster X opens clust k l -> 0 <= name k l) /\
  (forall k l k' l', is_cluster X opens clust k l -> is_cluster X opens clust k' l' ->
     name k l = name k' l' -> k = k' /\ l = l').

(** Every open set lists each point at most once. *)
Definition sets_nodup (opens : list (list nat)) : Prop := Forall (@NoDup nat) opens.

(** Observations on a graph. *)
Definition has_node (g : graph) (z : Z) : Prop := In z (map fst (g_nodes g)).
Definition node_attr (g : graph) (z : Z) (size : nat) (ids : list nat) : Prop :=
  In (z, (size, ids)) (g_nodes g).
Definition adjacent (g : graph) (a b : Z) : Prop :=
  exists nb, In (a, nb) (g_adj g) /\ In b nb.
Definition connected (g : graph) : Z -> Z -> Prop := clos_refl_sym_trans Z (adjacent g).

(** Node and neighbour tables are dictionaries over the same keys, without
    repeated neighbours. *)
Definition well_formed (g : graph) : Prop :=
  NoDup (map fst (g_nodes g)) /\ map fst (g_adj g) = map fst (g_nodes g) /\
  (forall a nb, In (a, nb) (g_adj g) -> NoDup nb).
