(** Python dictionaries as insertion-ordered association lists. Definitions only. *)
From Verif Require Import Base.

Section Dict.
Context {A V : Type}.
Variable eqb : A -> A -> bool.

(** [d.get(k)] *)
Fixpoint dget (d : list (A * V)) (k : A) : option V :=
  match d with
  | [] => None
  | (k', v) :: d' => if eqb k k' then Some v else dget d' k
  end.

(** [d[k]] *)
Definition dget_res (d : list (A * V)) (k : A) : res V :=
  match dget d k with
  | Some v => Ok v
  | None => Err KeyError
  end.

(** [d[k] = v]: keeps the position of an existing key, appends a new one. *)
Fixpoint dset (d : list (A * V)) (k : A) (v : V) : list (A * V) :=
  match d with
  | [] => [(k, v)]
  | (k', v') :: d' => if eqb k k' then (k', v) :: d' else (k', v') :: dset d' k v
  end.

(** [k in d] *)
Definition dmem (d : list (A * V)) (k : A) : bool :=
  match dget d k with Some _ => true | None => false end.

Definition dkeys (d : list (A * V)) : list A := map fst d.

(** [{x: f(x) for x in items}] *)
Definition dict_of (f : A -> V) (items : list A) : list (A * V) :=
  fold_left (fun d x => dset d x (f x)) items [].
End Dict.

(** [eqb] decides equality. *)
Definition decides_eq {A : Type} (eqb : A -> A -> bool) : Prop :=
  forall x y, eqb x y = true <-> x = y.
