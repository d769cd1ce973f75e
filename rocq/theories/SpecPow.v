(** What is expected of the C library's [pow]. *)
From Coq Require Import Reals.
From Verif Require Import Base ModelFloat SpecDouble.
Open Scope R_scope.

(** Between one half and one, powers up to the first are computed with relative error [2 ** -52]. *)
Definition accurate_pow (p : b64 -> b64 -> b64) : Prop :=
  forall a b, finite a -> finite b -> 1 / 2 <= value a <= 1 -> 0 <= value b <= 1 ->
  finite (p a b) /\ Rabs (value (p a b) - Rpower (value a) (value b)) <= eps64 * Rpower (value a) (value b).
