(** The grid of a cubical cover, over the real numbers. A dataset is a list of
    rows of [m] coordinates. *)
From Verif Require Import Base.
From Coq Require Import Reals.
Open Scope R_scope.

Definition coord (x : list R) (j : nat) : R := nth j x 0.

(** [lo j], [hi j] are the least and the greatest value of column [j]. *)
Definition column_bounds (m : nat) (X : list (list R)) (lo hi : nat -> R) : Prop :=
  forall j, (j < m)%nat ->
    (exists x, In x X /\ coord x j = lo j) /\ (exists x, In x X /\ coord x j = hi j) /\
    forall x, In x X -> lo j <= coord x j <= hi j.

(** Position on axis [j], in units of grid cells: [n] cells from the least to the
    greatest value. A column with (almost) one value keeps its unit. *)
Definition grid_pos (n : Z) (eps : R) (lo hi : nat -> R) (j : nat) (v : R) : R :=
  if Rle_dec (hi j - lo j) eps then v - lo j else IZR n * (v - lo j) / (hi j - lo j).

(** [c] is the number of the grid cell of position [z]: cell [c] is [c, c + 1),
    and everything above the last cell [n - 1] belongs to it. *)
Definition cell_number (n : Z) (z : R) (c : Z) : Prop :=
  (c <= n - 1)%Z /\ IZR c <= z /\ ((c < n - 1)%Z -> z < IZR c + 1).

Definition in_cell (m : nat) (n : Z) (p : nat -> R -> R) (x : list R) (c : list Z) : Prop :=
  length c = m /\ forall j, (j < m)%nat -> cell_number n (p j (coord x j)) (nth j c 0%Z).

(** [x] is in the open hypercube of half side [r] around the middle of cell [c]. *)
Definition in_cube (m : nat) (r : R) (p : nat -> R -> R) (c : list Z) (x : list R) : Prop :=
  forall j, (j < m)%nat -> Rabs (p j (coord x j) - (IZR (nth j c 0%Z) + 1 / 2)) < r.

(** [s] lists, each once, the ids of the points in the hypercube of [c]. *)
Definition cube_ids (m : nat) (r : R) (p : nat -> R -> R) (X : list (list R)) (c : list Z)
    (s : list nat) : Prop :=
  NoDup s /\ forall i, In i s <-> exists x, nth_error X i = Some x /\ in_cube m r p c x.

(** Point [i] is the first one of the dataset in cell [c]. *)
Definition first_in_cell (m : nat) (n : Z) (p : nat -> R -> R) (X : list (list R)) (c : list Z)
    (i : nat) : Prop :=
  (exists x, nth_error X i = Some x /\ in_cell m n p x c) /\
  forall j y, (j < i)%nat -> nth_error X j = Some y -> ~ in_cell m n p y c.

(** The documented default of [overlap_frac]: half of each grid cell is shared.
    [1 / (1 - ov)] is the side of a hypercube, in units of grid cells. *)
Definition default_overlap (m : nat) (ov : R) : Prop :=
  0 < ov <= 1 / 3 /\ (2 - 1 / (1 - ov)) ^ m = 1 / 2.
Definition overlap_is (m : nat) (given : option R) (ov : R) : Prop :=
  match given with Some o => o = ov | None => default_overlap m ov end.
