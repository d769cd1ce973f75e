(** Specification vocabulary for in-place rearrangements of arrays. *)
From Verif Require Import Base.

(** [f] is a rearrangement of positions that only touches [[s, e)]. *)
Definition rearranges (s e : nat) (f : nat -> nat) : Prop :=
  (forall i, s <= i < e -> s <= f i < e) /\
  (forall i j, s <= i < e -> s <= j < e -> f i = f j -> i = j) /\
  (forall i, ~ (s <= i < e) -> f i = i).

(** [l'] is [l] with the entry of position [f i] moved to position [i]. *)
Definition moved {X : Type} (f : nat -> nat) (l l' : list X) : Prop :=
  length l' = length l /\ forall i, nth_error l' i = nth_error l (f i).

Definition moved_opt {X : Type} (f : nat -> nat) (o o' : option (list X)) : Prop :=
  match o, o' with
  | None, None => True
  | Some l, Some l' => moved f l l'
  | _, _ => False
  end.

(** Every entry of [l] at a position in [[s, e)] satisfies [P]. *)
Definition on_range {X : Type} (l : list X) (s e : nat) (P : X -> Prop) : Prop :=
  forall i x, s <= i < e -> nth_error l i = Some x -> P x.

(** Strict weak order given by a boolean test, as Python's [<] on
    non-NaN numbers. *)
Definition asym {K : Type} (ltb : K -> K -> bool) : Prop :=
  forall x y, ltb x y = true -> ltb y x = false.
Definition neg_trans {K : Type} (ltb : K -> K -> bool) : Prop :=
  forall x y z, ltb x y = false -> ltb y z = false -> ltb x z = false.
Definition strict_weak {K : Type} (ltb : K -> K -> bool) : Prop :=
  asym ltb /\ neg_trans ltb.
