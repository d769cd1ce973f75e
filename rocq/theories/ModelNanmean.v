(** [np.nanmean], the default value of [agg] in [plot.py:102], [143] and [236],
    applied to the values of the points of a node ([core.py:239-240]).
    NumPy replaces each NaN by 0, adds the numbers pairwise in blocks, and divides
    by the number of values that were not NaN. The order and the grouping of the
    additions depend on the length and on the machine, so they are a parameter:
    [order n] says how [n] numbers are added. If there is nothing to average the
    division is 0 / 0, which gives NaN and a warning but no exception. *)
From Coq Require Import String.
From Flocq Require Import Core BinarySingleNaN.
From Verif Require Import Base ModelArith ModelFloat ModelFastmath.
Open Scope nat_scope.

Definition b_nan (x : b64) : bool := @is_nan 53 1024 x.

(** [np.sum] of [v], in the order given by the plan. *)
Fixpoint sum_plan (p : plan) (v : list b64) : b64 :=
  match p with
  | Nothing => b_zero
  | Item i => at_ v i
  | Join p q => b_plus (sum_plan p v) (sum_plan q v)
  | Fused p i => b_plus (sum_plan p v) (at_ v i)
  end.

(** [_replace_nan(a, 0)]. *)
Definition replace_nan (x : b64) : b64 := if b_nan x then b_zero else x.
(** [np.sum(~mask)]. *)
Definition count (xs : list b64) : nat := length (filter (fun x => negb (b_nan x)) xs).

Definition nanmean (order : nat -> plan) (xs : list b64) : res b64 :=
  Ok (b_div (sum_plan (order (length xs)) (map replace_nan xs)) (b_ofz (Z.of_nat (count xs)))).

(** One after the other, as NumPy does for fewer than 8 numbers. *)
Fixpoint in_turn (n : nat) : plan :=
  match n with
  | 0 => Nothing
  | 1 => Item 0
  | S n => Fused (in_turn n) n
  end.
