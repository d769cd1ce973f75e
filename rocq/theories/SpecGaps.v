(** Specification vocabulary for components and gaps in the data. *)
From Coq Require Export Relations.
From Verif Require Import Base ModelCore SpecCore.
Open Scope Z_scope.

(** Points [i] and [j] are in a common cluster of a common open set. *)
Definition share_cluster {S : Type} (X : list S) (opens : list (list nat)) (clust : clustering S) (i j : nat) : Prop :=
  exists k l, in_cluster X opens clust k l i /\ in_cluster X opens clust k l j.

(** Points [i] and [j] of [Y] are related by [close]. *)
Definition close_points {T : Type} (close : T -> T -> Prop) (Y : list T) (i j : nat) : Prop :=
  exists x y, nth_error Y i = Some x /\ nth_error Y j = Some y /\ close x y.

(** One can walk from [i] to [j] along points of [Y], with every step between
    points that are [close], in one direction or the other. *)
Definition walk {T : Type} (close : T -> T -> Prop) (Y : list T) : nat -> nat -> Prop :=
  clos_refl_sym_trans nat (close_points close Y).
