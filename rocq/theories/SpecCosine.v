(** Vectors of doubles whose cosine distance is computed without overflow or underflow. *)
From Coq Require Import Reals List.
From Flocq Require Import Core.
From Verif Require Import ModelFloat SpecDouble SpecMetrics.
Open Scope R_scope.

(** [m] finite entries of absolute value at most [2 ^ 300] (about [2 * 10 ^ 90]), of euclidean
    norm at least [2 ^ -300]. *)
Definition fair (m : nat) (x : list b64) : Prop :=
  length x = m /\ Forall (small 300) x /\ bpow radix2 (-600) <= total Rmult (reals x) (reals x).
