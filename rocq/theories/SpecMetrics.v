(** The documented distances (utils/metrics.py, module and function docstrings),
    on real vectors, stated without the functions of the library. *)
From Coq Require Import Reals List.
From Verif Require Import SpecMetric SpecCubical.
Import ListNotations.
Open Scope R_scope.

(** Sum of [f x_i y_i]. *)
Fixpoint total (f : R -> R -> R) (x y : list R) : R :=
  match x, y with
  | a :: x', b :: y' => f a b + total f x' y'
  | _, _ => 0
  end.

(** "the square root of the sum of the squared differences". *)
Definition is_euclidean (x y : list R) (d : R) : Prop :=
  0 <= d /\ d * d = total (fun a b => (a - b) * (a - b)) x y.
(** "the sum of the absolute differences". *)
Definition is_manhattan (x y : list R) (d : R) : Prop := d = total (fun a b => Rabs (a - b)) x y.
(** "the maximum absolute difference"; 0 for vectors without entries. *)
Definition is_chebyshev (x y : list R) (d : R) : Prop :=
  (forall j, (j < length x)%nat -> Rabs (coord x j - coord y j) <= d) /\
  ((x = [] /\ d = 0) \/ exists j, (j < length x)%nat /\ Rabs (coord x j - coord y j) = d).
(** [a] to the power [p > 0], for [a >= 0]. *)
Definition is_power (p a b : R) : Prop := (a = 0 /\ b = 0) \/ (0 < a /\ b = Rpower a p).
(** Minkowski distance: [d ^ p = sum |x_i - y_i| ^ p]. *)
Definition is_minkowski (p : R) (x y : list R) (d : R) : Prop :=
  0 <= d /\ exists (f : R -> R), (forall a, 0 <= a -> is_power p a (f a)) /\
    f d = total (fun a b => f (Rabs (a - b))) x y.
(** Cosine similarity: [s * |x| * |y| = <x, y>], and the distance [sqrt (2 (1 - s))]. *)
Definition is_cosine (x y : list R) (d : R) : Prop :=
  0 <= d /\ exists nx ny s,
    0 < nx /\ nx * nx = total Rmult x x /\ 0 < ny /\ ny * ny = total Rmult y y /\
    s * (nx * ny) = total Rmult x y /\ d * d = 2 * (1 - s).

Definition dim (m : nat) (x : list R) : Prop := length x = m.
Definition nonzero (x : list R) : Prop := exists a, In a x /\ a <> 0.
