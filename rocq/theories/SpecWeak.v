(** Specification vocabulary for covers built on distances that need not satisfy
    the triangle inequality. *)
From Verif Require Import Base SpecVPTree.
Open Scope nat_scope.

Section SpecWeak.
Context {T D : Type}.
Variable metric : T -> T -> D.
Variables leb ltb : D -> D -> bool.

(** [s] lists, each once, ids of points of [X] closer than [r] to [q]; the points
    that close and not listed are [lost]. *)
Definition ball_up_to (X : list T) (r : D) (q : T) (lost : T -> Prop) (s : list nat) : Prop :=
  NoDup s /\
  (forall i, In i s -> exists x, nth_error X i = Some x /\ ltb (metric q x) r = true) /\
  (forall i x, nth_error X i = Some x -> ltb (metric q x) r = true -> ~ In i s -> lost x).

(** [s] lists [min k n] different ids of [X]; an id that is not listed belongs to
    a point no closer than any listed one, or to a [lost] one. *)
Definition nearest_up_to (X : list T) (k : nat) (q : T) (lost : list nat -> T -> Prop) (s : list nat) : Prop :=
  NoDup s /\ length s = Nat.min k (length X) /\
  (forall i, In i s -> i < length X) /\
  forall j y, ~ In j s -> nth_error X j = Some y ->
    (forall i x, In i s -> nth_error X i = Some x -> leb (metric q x) (metric q y) = true) \/ lost s y.

(** Distances compare equal in both directions, between the points of [X]. *)
Definition symmetric_on (X : list T) : Prop := forall x y, In x X -> In y X -> metric x y = metric y x.

(** Entries at distance zero of each other. *)
Definition same_place (x : T) (y : T) : bool := leb (metric x y) (metric x x).
End SpecWeak.
