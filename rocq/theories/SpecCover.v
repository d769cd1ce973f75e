(** Specification vocabulary for open covers. *)
From Verif Require Import Base SpecVPTree.
Open Scope nat_scope.

(** Every point of a dataset of [n] points is in some set. *)
Definition covers (n : nat) (sets : list (list nat)) : Prop :=
  forall i, i < n -> exists s, In s sets /\ In i s.

Section SpecCover.
Context {T D : Type}.
Variable metric : T -> T -> D.
Variables leb ltb : D -> D -> bool.
Variable gap : D -> D -> D.

(** [s] lists, each once, the ids of the points of [X] closer than [r] to [q]. *)
Definition open_ball (X : list T) (r : D) (q : T) (s : list nat) : Prop :=
  NoDup s /\
  forall i, In i s <-> exists x, nth_error X i = Some x /\ ltb (metric q x) r = true.

(** [s] lists [min k n] different ids of [X], no other id being closer to [q]. *)
Definition nearest (X : list T) (k : nat) (q : T) (s : list nat) : Prop :=
  NoDup s /\ length s = Nat.min k (length X) /\
  (forall i, In i s -> i < length X) /\
  forall i j x y, In i s -> ~ In j s -> nth_error X i = Some x -> nth_error X j = Some y ->
    leb (metric q x) (metric q y) = true.

(** What a search from [q] needs of the metric: symmetry and pruning, see C18-C21. *)
Definition searchable (X : list T) (q : T) : Prop :=
  (forall v, In v X -> metric v q = metric q v) /\ prune_safe metric leb ltb gap X q.
End SpecCover.
