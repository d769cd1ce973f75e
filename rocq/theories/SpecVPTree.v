(** Specification vocabulary for nearest-neighbour searches. *)
From Verif Require Import Base.

Section SpecVPTree.
Context {T D : Type}.
Variable metric : T -> T -> D.
Variables leb ltb : D -> D -> bool.
Variable gap : D -> D -> D.

(** What is assumed of the comparisons: a total preorder, with [<] its strict
    part (no NaN), and [abs(a - b)], [abs(b - a)] comparing equal. *)
Record order_ok : Prop := mk_order {
  ord_total : forall a b, leb a b = true \/ leb b a = true;
  ord_trans : forall a b c, leb a b = true -> leb b c = true -> leb a c = true;
  ord_lt : forall a b, ltb a b = negb (leb b a);
  ord_gap : forall a b, leb (gap a b) (gap b a) = true }.

(** The answer of a ball query: all entries of [X] in the ball, with
    multiplicity. *)
Definition in_ball (q : T) (eps : D) (inclusive : bool) (x : T) : bool :=
  if inclusive then leb (metric q x) eps else ltb (metric q x) eps.
Definition ball_answer (X : list T) (q : T) (eps : D) (inclusive : bool) (res : list T) : Prop :=
  Permutation res (filter (in_ball q eps inclusive) X).

(** The answer of a k-nearest query: [min k (length X)] entries of [X], no entry
    left out being closer than a returned one. *)
Definition knn_answer (X : list T) (q : T) (k : nat) (res : list T) : Prop :=
  length res = Nat.min k (length X) /\
  exists rest, Permutation X (res ++ rest) /\
    forall a b, In a res -> In b rest -> leb (metric q a) (metric q b) = true.

(** The sphere of centre [v] and radius [r] separates [q] from [x]. *)
Definition separates (v : T) (r : D) (q x : T) : Prop :=
  (leb (metric q v) r = true /\ leb r (metric v x) = true) \/
  (ltb r (metric q v) = true /\ leb (metric v x) r = true).

(** [x] is cut off from [q] by a sphere centred at an entry [v] of [X] through an
    entry [y] of [X], at computed distance [g] with [far g]. *)
Definition cut_off (X : list T) (q : T) (far : D -> Prop) (x : T) : Prop :=
  exists v y, In v X /\ In y X /\ separates v (metric v y) q x /\
    far (gap (metric q v) (metric v y)).

(** The triangle inequality, as far as the search relies on it: separated entries
    are at least as far as the computed distance from the separating sphere. *)
Definition prune_safe (X : list T) (q : T) : Prop :=
  forall v y x, In v X -> In y X -> In x X -> separates v (metric v y) q x ->
    leb (gap (metric q v) (metric v y)) (metric q x) = true.
End SpecVPTree.
