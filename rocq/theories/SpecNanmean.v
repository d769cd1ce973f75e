(** Specification vocabulary for averages that leave out missing values. *)
From Coq Require Import Reals.
From Flocq Require Import Core BinarySingleNaN.
From Verif Require Import Base ModelFloat SpecDouble.
Open Scope R_scope.

(** The values that are there, as real numbers. *)
Inductive present : list b64 -> list R -> Prop :=
| present_nil : present [] []
| present_nan xs rs : present xs rs -> present (B754_nan :: xs) rs
| present_val x xs rs : x <> B754_nan -> present xs rs -> present (x :: xs) (value x :: rs).

Definition total_of (rs : list R) : R := fold_right Rplus 0 rs.
(** The exact average. *)
Definition mean (rs : list R) : R := total_of rs / INR (length rs).

(** Every value is NaN or a finite number of absolute value at most [2 ^ k]. *)
Definition tame (k : Z) (xs : list b64) : Prop := Forall (fun x => x = B754_nan \/ small k x) xs.

(** The averages of at most [n] numbers of absolute value at most [B] are computed
    up to this error. *)
Definition mean_error (n : nat) (B : R) : R := (INR n + 1) * bpow radix2 (-52) * B + bpow radix2 (-1075).
(** The number of values that are added. *)
Definition few (xs : list b64) : Prop := (Z.of_nat (length xs) <= 2 ^ 20)%Z.
Definition is_integer (r : R) : Prop := exists z, r = IZR z.
