(** Specification vocabulary for input validation. *)
From Verif Require Import Base ModelValidate.

Section Spec.
Context {F O : Type}.
Variable is_nan : F -> bool.
Variable is_inf : F -> bool.
Variable to_float : O -> res F.

Definition finite (x : F) : Prop := is_nan x = false /\ is_inf x = false.

(** The array has no entry at all. *)
Definition empty (a : ndarray F O) : Prop := In 0 (a_shape a).

(** The array consists of the numbers [xs], as they are or as the values of objects. *)
Definition holds_numbers (a : ndarray F O) (xs : list F) : Prop :=
  a_entries a = ENum xs \/ exists os, a_entries a = EObject os /\ Forall2 (fun o x => to_float o = Ok x) os xs.

(** Numeric in the wide sense: real or complex numbers. *)
Definition numeric (a : ndarray F O) : Prop :=
  (exists xs, a_entries a = ENum xs) \/ (exists n, a_entries a = EComplex n).
Definition complex (a : ndarray F O) : Prop := exists n, a_entries a = EComplex n.
Definition has_non_finite (a : ndarray F O) : Prop :=
  exists xs x, a_entries a = ENum xs /\ In x xs /\ (is_nan x = true \/ is_inf x = true).

(** The row [i] of an array with [n] rows of shape [dims]. *)
Definition is_row (a : ndarray F O) (i : nat) (r : ndarray F O) : Prop :=
  exists n dims xs ys, a_shape a = n :: dims /\ a_entries a = ENum xs /\ i < n /\
    r = mkarr dims (ENum ys) /\ length ys = fold_right Nat.mul 1 dims /\
    forall j, j < length ys -> nth_error ys j = nth_error xs (i * length ys + j).

(** The number of entries is the one the shape says. *)
Definition array_ok (a : ndarray F O) : Prop :=
  match a_entries a with
  | ENum xs => length xs = size a
  | EObject os => length os = size a
  | EComplex n | EOther n => n = size a
  end.
End Spec.
