(** What the neighbours found in double precision are. *)
From Coq Require Import Reals.
From Verif Require Import Base ModelFloat SpecDouble.
Open Scope R_scope.

(** [s] are [k] points of [X] (all of them, if there are fewer), each of which is
    among the nearest to [x] up to rounding: no point left out is closer to [x]
    by more than six rounding errors of the true distance [D], when no two points
    are further than [B] apart. *)
Definition neighbours_of (m : nat) (D : list R -> list R -> R) (k : nat) (X : list (list b64)) (x : list b64)
    (s : list nat) : Prop :=
  NoDup s /\ length s = Nat.min k (length X) /\ (forall j, In j s -> (j < length X)%nat) /\
  forall B, (forall a b, In a (x :: X) -> In b (x :: X) -> D (reals a) (reals b) <= B) ->
    forall j y i z, In j s -> nth_error X j = Some y -> ~ In i s -> nth_error X i = Some z ->
      D (reals x) (reals y) <= D (reals x) (reals z) + 6 * rounding_error m B.
