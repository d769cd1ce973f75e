(** Specification vocabulary for distances computed in double precision. *)
From Coq Require Import Reals.
From Flocq Require Import Core BinarySingleNaN.
From Verif Require Import Base ModelFloat SpecCubical.
Open Scope R_scope.

(** The real number a double stands for (0 for infinities and NaN). *)
Definition value (a : b64) : R := @B2R 53 1024 a.
Definition finite (a : b64) : Prop := @is_finite 53 1024 a = true.
(** A finite number, at least 0. *)
Definition magnitude (a : b64) : Prop := finite a /\ 0 <= value a.
Definition opt_magnitude (a : option b64) : Prop := match a with None => True | Some r => magnitude r end.

Section Distances.
Context {T : Type}.
Variable d : T -> T -> b64.

(** Among the points [L], distances are finite, at least 0 and do not depend on
    the order of the arguments. *)
Definition distances_ok (L : list T) : Prop :=
  forall x y, In x L -> In y L -> magnitude (d x y) /\ value (d x y) = value (d y x).

(** On [L], [d] computes the true distance [D] up to an error of at most [err]. *)
Definition computes (D : T -> T -> R) (err : R) (L : list T) : Prop :=
  forall x y, In x L -> In y L -> Rabs (value (d x y) - D x y) <= err.
End Distances.

(** A true distance: the triangle inequality among the points [L]. *)
Definition triangle_on {T : Type} (D : T -> T -> R) (L : list T) : Prop :=
  forall x y z, In x L -> In y L -> In z L -> D x z <= D x y + D y z.

(** A finite number of absolute value at most [2 ^ k]. *)
Definition small (k : Z) (a : b64) : Prop := finite a /\ Rabs (value a) <= bpow radix2 k.
(** A vector of [m] finite numbers of absolute value at most [2 ^ 500] (above [10 ^ 150]). *)
Definition moderate (m : nat) (x : list b64) : Prop := length x = m /\ Forall (small 500) x.
(** The real vector a vector of doubles stands for. *)
Definition reals (x : list b64) : list R := map value x.

(** How far a computed distance may be from a true distance [D] between vectors of
    [m] numbers: about [m + 5] units in the 52nd place. *)
Definition rounding_error (m : nat) (D : R) : R :=
  (INR m + 5) * bpow radix2 (-52) * D + INR m * bpow radix2 (-536).

(** What a ball of the cover holds: by the computed distance [d] to its center [x],
    and by the true distance [D], when no two points are further than [B] apart. *)
Definition ball_of (m : nat) (d : list b64 -> list b64 -> b64) (D : list R -> list R -> R)
    (r : R) (X : list (list b64)) (x : list b64) (s : list nat) : Prop :=
  NoDup s /\ (forall j, In j s -> exists y, nth_error X j = Some y /\ value (d x y) < r) /\
  forall B, (forall a b, In a (x :: X) -> In b (x :: X) -> D (reals a) (reals b) <= B) ->
    forall j y, nth_error X j = Some y ->
      (In j s -> D (reals x) (reals y) < r + rounding_error m B) /\
      (D (reals x) (reals y) < r - 4 * rounding_error m B -> In j s).

(** [np.finfo(np.float64).eps]. *)
Definition eps64 : R := bpow radix2 (-52).
(** The length that a cubical cover divides into [n] intervals: the range of the
    column, or [n] if the column has (almost) one value. *)
Definition width (n : Z) (lo hi : R) : R := if Rle_dec (hi - lo) eps64 then IZR n else hi - lo.
(** Rounding error of positions on the grid, in units of grid cells: proportional
    to the number of cells, and larger if the range is small next to the values. *)
Definition grid_error (n : Z) (lo hi : R) : R := eps64 * IZR n * (Rabs lo / width n lo hi + 64).

(** [s] lists, each once, ids of points of [X] in the hypercube of half side [r + E]
    around the middle of cell [k], and all those in the one of half side [r - E]. *)
Definition cube_up_to (E : R) (m : nat) (r : R) (p : nat -> R -> R) (X : list (list R)) (k : list Z) (s : list nat) : Prop :=
  NoDup s /\ (forall i, In i s -> exists x, nth_error X i = Some x /\ in_cube m (r + E) p k x) /\
  forall i x, nth_error X i = Some x -> in_cube m (r - E) p k x -> In i s.
(** [x] is in cell [k] of the grid of [n] cells per axis, up to [E]. *)
Definition near_cell (E : R) (m : nat) (n : Z) (p : nat -> R -> R) (x : list R) (k : list Z) : Prop :=
  length k = m /\ forall j, (j < m)%nat ->
    (0 <= nth j k 0 <= n - 1)%Z /\ Rabs (p j (coord x j) - (IZR (nth j k 0%Z) + 1 / 2)) <= 1 / 2 + E.
