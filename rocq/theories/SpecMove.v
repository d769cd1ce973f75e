(** Changes of coordinates. *)
From Coq Require Import Reals.
From Verif Require Import Base ModelArith ModelCover.
Open Scope R_scope.

(** Two datasets with the same distances between points at the same positions. *)
Definition same_distances {T T' D : Type} (d : T -> T -> D) (d' : T' -> T' -> D) (X : list T) (X' : list T') : Prop :=
  length X = length X' /\
  forall i j x y x' y', nth_error X i = Some x -> nth_error X j = Some y ->
    nth_error X' i = Some x' -> nth_error X' j = Some y' -> d' x' y' = d x y.

(** All distances multiplied by [s]. *)
Definition scaled_distances {T T' : Type} (s : R) (d : T -> T -> R) (d' : T' -> T' -> R) (X : list T) (X' : list T') : Prop :=
  length X = length X' /\
  forall i j x y x' y', nth_error X i = Some x -> nth_error X j = Some y ->
    nth_error X' i = Some x' -> nth_error X' j = Some y' -> d' x' y' = s * d x y.

(** The covers with lengths in the new unit. *)
Definition ball_scaled (s : R) (c : ball_cover R) : ball_cover R :=
  mkball (s * bc_radius c) (bc_tree c) (bc_leaf_capacity c) (option_map (Rmult s) (bc_leaf_radius c)).
Definition knn_scaled (s : R) (c : knn_cover R) : knn_cover R :=
  mkknn (kc_neighbors c) (kc_tree c) (kc_leaf_capacity c) (s * kc_leaf_radius c).

(** [s * x + v] for vectors. *)
Definition moved (s : R) (v x : list R) : list R := map2 (fun u w => s * w + u) v x.
(** Column [j] becomes [a * x + b] where [(a, b)] is entry [j] of [ab]. *)
Definition rescaled (ab : list (R * R)) (x : list R) : list R := map2 (fun p w => fst p * w + snd p) ab x.
(** Each row multiplied by its own positive number. *)
Definition same_directions (X X' : list (list R)) : Prop :=
  Forall2 (fun x x' => exists s, 0 < s /\ x' = map (Rmult s) x) X X'.
