(** Model of the input validation in src/tdamapper/_common.py: [EstimatorMixin].

    Scalars and Python objects are arbitrary types: [F] with numpy's [isnan] and
    [isinf], [O] with the conversion [float(o)], which may raise. *)
From Verif Require Import Base.

(** What [np.asarray] makes of an argument: the shape, and the entries in C order
    with their kind. [ENum]: a dtype on which [isnan] and [isinf] are defined
    (floats, integers, booleans). [EOther]: any other dtype, such as strings. *)
Inductive entries (F O : Type) : Type :=
| ENum (xs : list F)
| EComplex (n : nat)
| EObject (os : list O)
| EOther (n : nat).
Arguments ENum {F O}. Arguments EComplex {F O}. Arguments EObject {F O}. Arguments EOther {F O}.

Record ndarray (F O : Type) : Type := mkarr { a_shape : list nat; a_entries : entries F O }.
Arguments mkarr {F O}. Arguments a_shape {F O}. Arguments a_entries {F O}.

(** An argument of [fit]: whether it has a method [toarray] (_common.py:57-65 [_is_sparse]), and what [np.asarray]
    gives, which may raise (ragged nested lists). *)
Record input (F O : Type) : Type := mkinput { in_sparse : bool; in_array : res (ndarray F O) }.
Arguments mkinput {F O}. Arguments in_sparse {F O}. Arguments in_array {F O}.

Section Validate.
Context {F O : Type}.
Variable is_nan : F -> bool.
Variable is_inf : F -> bool.
Variable to_float : O -> res F.

(** [ndarray.size]. *)
Definition size (a : ndarray F O) : nat := fold_right Nat.mul 1 (a_shape a).

(** [np.iscomplexobj]: decided by the dtype. *)
Definition is_complex (a : ndarray F O) : bool :=
  match a_entries a with EComplex _ => true | _ => false end.

(** _common.py:99-103 [if X_.dtype == np.object_: X_ = np.array(X_, dtype=float)]. *)
Definition convert (a : ndarray F O) : res (ndarray F O) :=
  match a_entries a with
  | EObject os => do xs <- map_res to_float os; Ok (mkarr (a_shape a) (ENum xs))
  | _ => Ok a
  end.

(** [test(a).any()] for [test] one of [np.isnan], [np.isinf]. *)
Definition any (test : F -> bool) (a : ndarray F O) : res bool :=
  match a_entries a with
  | ENum xs => Ok (existsb test xs)
  | _ => Err TypeError
  end.

(** _common.py:105-111, with [or] evaluated from left to right. *)
Definition not_finite (X y : ndarray F O) : res bool :=
  do b <- any is_nan X; if b then Ok true else
  do b <- any is_inf X; if b then Ok true else
  do b <- any is_nan y; if b then Ok true else
  any is_inf y.

(** _common.py:67-113 [_validate_X_y]. *)
Definition validate (X y : input F O) : res (ndarray F O * ndarray F O) :=
  if in_sparse X then Err ValueError else
  do X1 <- in_array X;
  do y1 <- in_array y;
  if size X1 =? 0 then Err ValueError else
  if size y1 =? 0 then Err ValueError else
  if length (a_shape X1) =? 1 then Err ValueError else
  if is_complex X1 || is_complex y1 then Err ValueError else
  do X2 <- convert X1;
  do y2 <- convert y1;
  do bad <- not_finite X2 y2;
  if bad : bool then Err ValueError else Ok (X2, y2).

(** Consecutive pieces of length [k]. *)
Fixpoint chunks {A : Type} (n k : nat) (l : list A) : list (list A) :=
  match n with
  | 0 => []
  | S n' => firstn k l :: chunks n' k (skipn k l)
  end.

(** Iterating over a numeric array gives its rows, subarrays along the first
    axis; a 0-d array cannot be iterated over and has no [len]. Only called on
    what [validate] returns. *)
Definition rows (a : ndarray F O) : res (list (ndarray F O)) :=
  match a_shape a, a_entries a with
  | [], _ => Err TypeError
  | n :: dims, ENum xs => Ok (map (fun r => mkarr dims (ENum r)) (chunks n (fold_right Nat.mul 1 dims) xs))
  | _ :: _, _ => Err TypeError
  end.

(** [np.asarray] of a list of rows, as when an open set is handed to a clustering:
    stacked if the shapes agree. An empty list gives the shape [(0,)]. *)
Definition row_entries (a : ndarray F O) : list F := match a_entries a with ENum xs => xs | _ => [] end.
Definition input_of_rows (rs : list (ndarray F O)) : input F O :=
  mkinput false
    match rs with
    | [] => Ok (mkarr [0] (ENum []))
    | r :: _ =>
        if forallb (fun r' => if list_eq_dec Nat.eq_dec (a_shape r') (a_shape r) then true else false) rs
        then Ok (mkarr (length rs :: a_shape r) (ENum (concat (map row_entries rs))))
        else Err ValueError
    end.
End Validate.
