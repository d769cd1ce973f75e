(** Model of src/tdamapper/utils/unionfind.py. *)
From Verif Require Import Base Dict.

Section UF.
Context {A : Type}.
Variable eqb : A -> A -> bool.

(** The two dictionaries of the object (unionfind.py:20-21). *)
Record uf : Type := mkuf { uf_parent : list (A * A); uf_size : list (A * nat) }.

(** What Python can pass as [items]: something that can be iterated again from
    the start (list, set, dict, ...), or a one-shot iterator, whose second
    iteration yields nothing. *)
Inductive iterable : Type :=
| Reusable (l : list A)
| OneShot (l : list A).
Definition first_iteration (it : iterable) : list A :=
  match it with Reusable l | OneShot l => l end.
Definition second_iteration (it : iterable) : list A :=
  match it with Reusable l => l | OneShot _ => [] end.

(** unionfind.py:23-25 [__init__]: [items] is iterated twice. *)
Definition uf_init (items : iterable) : uf :=
  mkuf (dict_of eqb (fun x => x) (first_iteration items))
       (dict_of eqb (fun _ => 1) (second_iteration items)).

(** unionfind.py:34-36: [while root != self._parent[root]: root = self._parent[root]]. *)
Fixpoint find_root (fuel : nat) (p : list (A * A)) (root : A) : res A :=
  match fuel with
  | 0 => Err OutOfFuel
  | S fuel' =>
      do pr <- dget_res eqb p root;
      if eqb root pr then Ok root else find_root fuel' p pr
  end.

(** unionfind.py:37-41: path compression. *)
Fixpoint compress (fuel : nat) (p : list (A * A)) (tmp root : A) : res (list (A * A)) :=
  match fuel with
  | 0 => Err OutOfFuel
  | S fuel' =>
      if eqb tmp root then Ok p
      else
        do parent <- dget_res eqb p tmp;
        compress fuel' (dset eqb p tmp root) parent root
  end.

(** unionfind.py:27-42 [find]. Fuel: one more than the number of elements. *)
Definition uf_find (u : uf) (x : A) : res (A * uf) :=
  let fuel := S (length (uf_parent u)) in
  do root <- find_root fuel (uf_parent u) x;
  do p' <- compress fuel (uf_parent u) x root;
  Ok (root, mkuf p' (uf_size u)).

(** unionfind.py:44-63 [union]. *)
Definition uf_union (u : uf) (x y : A) : res (A * uf) :=
  do rx <- uf_find u x;
  let '(x, u1) := rx in
  do ry <- uf_find u1 y;
  let '(y, u2) := ry in
  if negb (eqb x y) then
    do x_size <- dget_res eqb (uf_size u2) x;
    do y_size <- dget_res eqb (uf_size u2) y;
    let '(to_keep, to_move) := if x_size <? y_size then (y, x) else (x, y) in
    Ok (to_keep, mkuf (dset eqb (uf_parent u2) to_move to_keep)
                      (dset eqb (uf_size u2) to_keep (x_size + y_size)))
  else Ok (x, u2).

(** A client's history. *)
Inductive uf_op : Type :=
| UFind (x : A)
| UUnion (x y : A).

Definition uf_step (u : uf) (o : uf_op) : res (A * uf) :=
  match o with
  | UFind x => uf_find u x
  | UUnion x y => uf_union u x y
  end.

Fixpoint uf_run (u : uf) (ops : list uf_op) : res (list A * uf) :=
  match ops with
  | [] => Ok ([], u)
  | o :: ops' =>
      do r <- uf_step u o;
      let '(out, u1) := r in
      do r2 <- uf_run u1 ops';
      let '(outs, u2) := r2 in
      Ok (out :: outs, u2)
  end.

End UF.
Arguments uf : clear implicits.
Arguments iterable : clear implicits.
Arguments uf_op : clear implicits.
Arguments mkuf {A}.
