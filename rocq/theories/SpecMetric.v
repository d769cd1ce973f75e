(** Metrics over the real numbers, and comparisons of reals as booleans. *)
From Verif Require Import Base.
From Coq Require Import Reals Lra.
Open Scope R_scope.

Section Metric.
Context {T : Type}.

Definition symmetric (d : T -> T -> R) : Prop := forall x y, d x y = d y x.
Definition triangle_ineq (d : T -> T -> R) : Prop := forall x y z, d x z <= d x y + d y z.

(** Distances may be zero between different points. *)
Record pseudo_metric (d : T -> T -> R) : Prop := mk_pseudo {
  pm_self : forall x, d x x = 0;
  pm_sym : symmetric d;
  pm_triangle : triangle_ineq d }.

(** A metric on the points satisfying [P]. *)
Record metric_on (P : T -> Prop) (d : T -> T -> R) : Prop := mk_metric {
  m_nonneg : forall x y, P x -> P y -> 0 <= d x y;
  m_zero : forall x y, P x -> P y -> (d x y = 0 <-> x = y);
  m_sym : forall x y, P x -> P y -> d x y = d y x;
  m_triangle : forall x y z, P x -> P y -> P z -> d x z <= d x y + d y z }.
End Metric.

Definition Rleb (a b : R) : bool := if Rle_dec a b then true else false.
Definition Rltb (a b : R) : bool := if Rlt_dec a b then true else false.
Definition Rgap (a b : R) : R := Rabs (a - b).

(** Rounding: any monotone and odd function. [representable] values are fixed. *)
Definition rounding (rnd : R -> R) : Prop :=
  (forall x y, x <= y -> rnd x <= rnd y) /\ (forall x, rnd (- x) = - rnd x).
Definition representable (rnd : R -> R) (x : R) : Prop := rnd x = x.
(** [abs(a - b)] with a rounded subtraction. *)
Definition rgap (rnd : R -> R) (a b : R) : R := Rabs (rnd (a - b)).

(** A pseudo-metric on the points satisfying [P]. *)
Record pseudo_metric_on {T : Type} (P : T -> Prop) (d : T -> T -> R) : Prop := mk_pseudo_on {
  po_self : forall x, P x -> d x x = 0;
  po_sym : forall x y, P x -> P y -> d x y = d y x;
  po_triangle : forall x y z, P x -> P y -> P z -> d x z <= d x y + d y z }.
