(** Specification vocabulary: how often the sets of a cubical cover overlap. *)
From Coq Require Import Reals.
From Verif Require Import Base SpecCubical.
Open Scope R_scope.

(** [js] are different positions in the list [opens] of sets that contain point [i]. *)
Definition sets_with (opens : list (list nat)) (i : nat) (js : list nat) : Prop :=
  NoDup js /\ forall j, In j js -> exists s, nth_error opens j = Some s /\ In i s.

(** The sets [opens] are the points in the hypercubes of the different grid cells
    [cells], each of which has a point. *)
Definition cubes_of (m : nat) (n : Z) (r : R) (p : nat -> R -> R) (X : list (list R))
    (cells : list (list Z)) (opens : list (list nat)) : Prop :=
  NoDup cells /\
  Forall2 (fun k s => (exists x, In x X /\ in_cell m n p x k) /\ cube_ids m r p X k s) cells opens.

(** Cells less than [K] apart along every axis. *)
Definition near (m : nat) (K : nat) (c c' : list Z) : Prop :=
  forall j, (j < m)%nat -> (Z.abs (nth j c 0 - nth j c' 0) < Z.of_nat K)%Z.
