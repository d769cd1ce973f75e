(** Number operations used by the numeric parts of the library, kept abstract so
    that the same model runs on rationals ([QA], for tests) and is reasoned about
    on real numbers ([RA]). Rounding of floats is not modelled here. *)
From Verif Require Import Base SpecMetric.
From Coq Require Import Reals QArith Qround Qreduction.
Open Scope nat_scope.

Record arith : Type := mkarith {
  num : Type;
  add : num -> num -> num;
  sub : num -> num -> num;
  mul : num -> num -> num;
  div : num -> num -> num;
  pow : num -> num -> num;
  ofz : Z -> num;
  floorz : num -> Z;
  le_b : num -> num -> bool;
  lt_b : num -> num -> bool }.

(** Exact reals. [pow] is meant for a positive base. *)
Definition RA : arith := {|
  num := R; add := Rplus; sub := Rminus; mul := Rmult; div := Rdiv; pow := Rpower;
  ofz := IZR; floorz := Int_part; le_b := Rleb; lt_b := Rltb |}.

(** Rationals in lowest terms; [pow] only for integer exponents. *)
Definition QA : arith := {|
  num := Q;
  add := fun a b => Qred (a + b);
  sub := fun a b => Qred (a - b);
  mul := fun a b => Qred (a * b);
  div := fun a b => Qred (a / b);
  pow := fun a b => Qred (Qpower a (Qfloor b));
  ofz := inject_Z; floorz := Qfloor;
  le_b := Qle_bool; lt_b := fun a b => negb (Qle_bool b a) |}.

Section Arith.
Variable A : arith.
Definition zero : num A := ofz A 0.
(** [abs(a - b)]. *)
Definition abs_diff (a b : num A) : num A := if le_b A b a then sub A a b else sub A b a.
Definition eq_b (a b : num A) : bool := le_b A a b && le_b A b a.
Definition min_n (a b : num A) : num A := if le_b A a b then a else b.
Definition max_n (a b : num A) : num A := if le_b A a b then b else a.

(** Element-wise operations on 1-d arrays of equal length. *)
Definition vec : Type := list (num A).
Fixpoint map2 {X Y Z : Type} (f : X -> Y -> Z) (l : list X) (l' : list Y) : list Z :=
  match l, l' with
  | x :: r, y :: r' => f x y :: map2 f r r'
  | _, _ => []
  end.

(** utils/_metrics.py:20-24 [chebyshev]: the largest entry of [|x - y|].
    (numpy raises on vectors without entries; here the result is 0.) *)
Definition chebyshev (x y : vec) : num A := fold_right max_n zero (map2 abs_diff x y).
End Arith.
