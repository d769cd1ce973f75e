(** The distances of [utils/_metrics.py:6-24] as [@njit(fastmath=True)] allows them
    to be compiled: sums in any order and grouping, and a product added to a sum
    in one rounding (fused multiply-add). Maxima in any order, too. *)
From Coq Require Import String Permutation.
From Flocq Require Import Core BinarySingleNaN.
From Verif Require Import Base ModelArith ModelMetrics ModelFloat.
Open Scope nat_scope.

(** How the coordinates are put together: nothing yet ([0.0]), the term of
    coordinate [i], two partial results, or a partial result and a coordinate
    whose term is not rounded before it is added. *)
Inductive plan : Type :=
| Nothing : plan
| Item (i : nat) : plan
| Join (p q : plan) : plan
| Fused (p : plan) (i : nat) : plan.

Fixpoint items (p : plan) : list nat :=
  match p with
  | Nothing => []
  | Item i => [i]
  | Join p q => items p ++ items q
  | Fused p i => i :: items p
  end.

(** A plan for [m] coordinates: each is used once. *)
Definition plan_for (m : nat) (p : plan) : Prop := Permutation (items p) (seq 0 m).

Definition b_fma : b64 -> b64 -> b64 -> b64 := @Bfma 53 1024 prec53 emax1024 mode_NE.
Definition at_ (v : list b64) (i : nat) : b64 := nth i v b_zero.

(** Sum of absolute values (there is no product to fuse). *)
Fixpoint sum_abs (p : plan) (v : list b64) : b64 :=
  match p with
  | Nothing => b_zero
  | Item i => b_abs (at_ v i)
  | Join p q => b_plus (sum_abs p v) (sum_abs q v)
  | Fused p i => b_plus (sum_abs p v) (b_abs (at_ v i))
  end.

(** Sum of squares. *)
Fixpoint sum_squares (p : plan) (v : list b64) : b64 :=
  match p with
  | Nothing => b_zero
  | Item i => b_mult (at_ v i) (at_ v i)
  | Join p q => b_plus (sum_squares p v) (sum_squares q v)
  | Fused p i => b_fma (at_ v i) (at_ v i) (sum_squares p v)
  end.

(** Maximum of absolute values. *)
Fixpoint max_abs (p : plan) (v : list b64) : b64 :=
  match p with
  | Nothing => b_zero
  | Item i => b_abs (at_ v i)
  | Join p q => max_n BA (max_abs p v) (max_abs q v)
  | Fused p i => max_n BA (max_abs p v) (b_abs (at_ v i))
  end.

(** [utils/_metrics.py:6-10], [13-17], [20-24]. *)
Definition fast_euclidean (p : plan) (x y : list b64) : b64 := b_sqrt (sum_squares p (map2 b_minus x y)).
Definition fast_manhattan (p : plan) (x y : list b64) : b64 := sum_abs p (map2 b_minus x y).
Definition fast_chebyshev (p : plan) (x y : list b64) : b64 := max_abs p (map2 b_minus x y).
Definition fast_metric (name : string) (p : plan) : list b64 -> list b64 -> b64 :=
  if (name =? "euclidean")%string then fast_euclidean p
  else if (name =? "manhattan")%string then fast_manhattan p
  else fast_chebyshev p.
