(** When rounding cannot change a cover. *)
From Coq Require Import Reals.
From Verif Require Import Base ModelFloat SpecCubical SpecDouble.
Open Scope R_scope.

(** No two points are further than [B] apart. *)
Definition within (D : list R -> list R -> R) (B : R) (X : list (list b64)) : Prop :=
  forall x y, In x X -> In y X -> D (reals x) (reals y) <= B.

(** No distance is within four rounding errors below or one above the radius. *)
Definition clear_of (D : list R -> list R -> R) (err r : R) (X : list (list b64)) : Prop :=
  forall x y, In x X -> In y X -> D (reals x) (reals y) < r - 4 * err \/ r + err <= D (reals x) (reals y).

(** Around each point, the [k] nearest (all, if there are fewer) are nearer than the
    others by more than six rounding errors. *)
Definition clear_neighbours (D : list R -> list R -> R) (err : R) (k : nat) (X : list (list b64)) : Prop :=
  forall x, In x X -> exists near : list nat,
    NoDup near /\ length near = Nat.min k (length X) /\ (forall i, In i near -> (i < length X)%nat) /\
    forall i j y z, In i near -> ~ In j near -> nth_error X i = Some y -> nth_error X j = Some z ->
      D (reals x) (reals y) + 6 * err < D (reals x) (reals z).

(** No point is within [E] of a border between two cells of the grid or of a face of
    the hypercube of half side [r] around the middle of a cell. *)
Definition clear_of_grid (E r : R) (m : nat) (n : Z) (p : nat -> R -> R) (X : list (list R)) : Prop :=
  forall x j, In x X -> (j < m)%nat ->
    let z := p j (coord x j) in
    (forall k, (1 <= k <= n - 1)%Z -> E < Rabs (z - IZR k)) /\
    (forall k, (0 <= k <= n - 1)%Z ->
       Rabs (z - (IZR k + 1 / 2)) < r - E \/ r + E <= Rabs (z - (IZR k + 1 / 2))).
