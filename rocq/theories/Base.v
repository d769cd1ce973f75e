(** Common vocabulary of the models: exceptions as values, checked array
    accesses, counted loops. Definitions only; lemmas are in [BaseFacts]. *)
From Coq Require Export List Arith ZArith Lia Bool Permutation.
Export ListNotations.

(** Python exception classes raised by the modelled code.
    [UserError n] stands for any other exception raised by user code
    (metric, clustering, aggregation). [OutOfFuel] is not a Python exception:
    it marks a [while] loop still running after the given number of rounds. *)
Inductive exn : Type :=
| IndexError | KeyError | ValueError | TypeError | AttributeError
| ZeroDivisionError | StopIteration | UserError (n : nat) | OutOfFuel.

Inductive res (A : Type) : Type :=
| Ok (a : A)
| Err (e : exn).
Arguments Ok {A} a.
Arguments Err {A} e.

Definition bind {A B : Type} (r : res A) (f : A -> res B) : res B :=
  match r with
  | Ok a => f a
  | Err e => Err e
  end.

Notation "'do' x <- e ; k" := (bind e (fun x => k))
  (at level 200, x pattern, e at level 100, k at level 200, right associativity).

(** [l[i]] for a Python list or 1-d numpy array and an index [i >= 0]. *)
Definition rd {A : Type} (l : list A) (i : nat) : res A :=
  match nth_error l i with
  | Some x => Ok x
  | None => Err IndexError
  end.

(** [l[i] = x] for an index [i >= 0]. *)
Definition wr {A : Type} (l : list A) (i : nat) (x : A) : res (list A) :=
  if i <? length l then Ok (firstn i l ++ x :: skipn (S i) l) else Err IndexError.

(** [for j in range(s, s + n): st = body(j, st)]. *)
Fixpoint for_range {S : Type} (n s : nat) (body : nat -> S -> res S) (st : S) : res S :=
  match n with
  | 0 => Ok st
  | Datatypes.S n' => do st' <- body s st; for_range n' (Datatypes.S s) body st'
  end.

(** [l[s:e]] for [0 <= s] and [0 <= e] (Python slices clip). *)
Definition slice {A : Type} (l : list A) (s e : nat) : list A :=
  firstn (e - s) (skipn s l).

(** [[f x for x in l]] where [f] may raise. *)
Fixpoint map_res {A B : Type} (f : A -> res B) (l : list A) : res (list B) :=
  match l with
  | [] => Ok []
  | x :: l' => do y <- f x; do ys <- map_res f l'; Ok (y :: ys)
  end.

(** [for x in l: st = body(x, st)]. *)
Fixpoint for_each {A S : Type} (l : list A) (body : A -> S -> res S) (st : S) : res S :=
  match l with
  | [] => Ok st
  | x :: l' => do st' <- body x st; for_each l' body st'
  end.
