(** Model of src/tdamapper/utils/_metrics.py and utils/metrics.py.

    Vectors are lists of equal length. [np.linalg.norm] and [np.dot] are those of
    numba for 1-d arrays of floats; the order of additions is left to right.
    [root] is [np.sqrt]. *)
From Coq Require Import String SpecFloat.
From Verif Require Import Base ModelArith.
Open Scope nat_scope.

Section Metrics.
Variable A : arith.
Variable root : num A -> num A.
Notation num := (num A).
Notation vec := (vec A).

Definition sum_n (l : list num) : num := fold_left (add A) l (zero A).

(** [np.linalg.norm(v)]. *)
Definition norm2 (v : vec) : num := root (sum_n (map (fun a => mul A a a) v)).

(** [abs(a)]. *)
Definition abs_n (a : num) : num := if le_b A (zero A) a then a else sub A (zero A) a.

(** [a ** p] for [a >= 0] and [p] different from 0. For [a = 0] and [p < 0] numpy
    gives infinity, see [power_norm]. *)
Definition power (a p : num) : num := if eq_b A a (zero A) then zero A else pow A a p.

(** The general case of [np.linalg.norm(v, ord=p)]: [(sum |v_i| ** p) ** (1 / p)].
    With [p < 0] a zero entry makes the sum infinite and the result 0. *)
Definition power_norm (p : num) (v : vec) : num :=
  if lt_b A p (zero A) && existsb (fun a => eq_b A a (zero A)) v then zero A
  else power (sum_n (map (fun a => power (abs_n a) p) v)) (div A (ofz A 1) p).

(** The orders accepted: floats other than NaN. *)
Inductive order : Type := Ord (p : num) | PosInf | NegInf.

(** [np.linalg.norm(v, ord=o)] on 1-d arrays with at least one entry. *)
Definition norm (o : order) (v : vec) : num :=
  match o with
  | PosInf => fold_right (max_n A) (zero A) (map abs_n v)
  | NegInf => match map abs_n v with [] => zero A | a :: l => fold_left (min_n A) l a end
  | Ord p =>
      if eq_b A p (ofz A 2) then norm2 v
      else if eq_b A p (zero A) then sum_n (map (fun a => if eq_b A a (zero A) then zero A else ofz A 1) v)
      else if eq_b A p (ofz A 1) then sum_n (map abs_n v)
      else power_norm p v
  end.

(** _metrics.py:6-10 [euclidean]; metrics.py:61-94, 122-142 return the functions. *)
Definition euclidean (x y : vec) : num := norm2 (map2 (sub A) x y).
(** _metrics.py:13-17 [manhattan]. *)
Definition manhattan (x y : vec) : num := norm (Ord (ofz A 1)) (map2 (sub A) x y).
(** _metrics.py:20-24 [chebyshev]; the covers use [ModelArith.chebyshev], proved equal. *)
Definition chebyshev_norm (x y : vec) : num := norm PosInf (map2 (sub A) x y).
(** _metrics.py:27-31 [minkowski]. *)
Definition minkowski_norm (o : order) (x y : vec) : num := norm o (map2 (sub A) x y).

(** _metrics.py:34-43 [cosine]. Division by zero raises in numba functions. *)
Definition dot (x y : vec) : num := sum_n (map2 (mul A) x y).
Definition cosine (x y : vec) : res num :=
  let xy := dot x y in
  let xx := norm2 x in
  let yy := norm2 y in
  let den := mul A xx yy in
  if eq_b A den (zero A) then Err ZeroDivisionError
  else
    let similarity := div A xy den in
    Ok (root (mul A (ofz A 2) (sub A (ofz A 1) similarity))).

(** A distance function, as the library uses them; it may raise. *)
Definition metric_fn : Type := vec -> vec -> res num.
Definition total_fn (f : vec -> vec -> num) : metric_fn := fun x y => Ok (f x y).

(** metrics.py:97-120 [minkowski]. [np.isinf] is also true for minus infinity. *)
Definition minkowski (o : order) : metric_fn :=
  match o with
  | Ord p =>
      if eq_b A p (ofz A 1) then total_fn manhattan
      else if eq_b A p (ofz A 2) then total_fn euclidean
      else total_fn (minkowski_norm (Ord p))
  | PosInf | NegInf => total_fn chebyshev_norm
  end.

(** Values passed as [metric], and keyword arguments. *)
Inductive metric_arg : Type := Callable (f : metric_fn) | Name (s : string) | OtherValue.
Inductive kwarg : Type := OrderValue (o : order) | OtherKw.

(** Calling [minkowski] with keyword arguments; a value of [p] that is not a number fails in
    [p == 1 ... np.isinf(p)] with TypeError. *)
Definition call_minkowski (kwargs : list (string * kwarg)) : res metric_fn :=
  match kwargs with
  | [(k, OrderValue o)] => if String.eqb k "p" then Ok (minkowski o) else Err TypeError
  | _ => Err TypeError
  end.
Definition call_plain (f : metric_fn) (kwargs : list (string * kwarg)) : res metric_fn :=
  match kwargs with [] => Ok f | _ => Err TypeError end.

(** metrics.py:147-169 [get_metric]. *)
Definition get_metric (metric : metric_arg) (kwargs : list (string * kwarg)) : res metric_fn :=
  match metric with
  | Callable f => Ok f
  | Name s =>
      if String.eqb s "euclidean" then call_plain (total_fn euclidean) kwargs
      else if String.eqb s "manhattan" then call_plain (total_fn manhattan) kwargs
      else if String.eqb s "minkowski" then call_minkowski kwargs
      else if String.eqb s "chebyshev" then call_plain (total_fn chebyshev_norm) kwargs
      else if String.eqb s "cosine" then call_plain cosine kwargs
      else Err ValueError
  | OtherValue => Err ValueError
  end.
End Metrics.
Arguments Ord {A}.
Arguments PosInf {A}.
Arguments NegInf {A}.
Arguments Callable {A}.
Arguments Name {A}.
Arguments OtherValue {A}.
Arguments OrderValue {A}.
Arguments OtherKw {A}.

(** metrics.py:43-58 [MetricLiteral], [get_supported_metrics]. *)
Definition get_supported_metrics : list string :=
  ["euclidean"; "manhattan"; "minkowski"; "chebyshev"; "cosine"]%string.

(** IEEE double precision (standard library, SpecFloat): the arithmetic used by
    the compiled code, here for [cosine]. [pow] and [floorz] are not provided. *)
Definition fprec : Z := 53.
Definition femax : Z := 1024.
Definition FA : arith := {|
  num := spec_float;
  add := SFadd fprec femax; sub := SFsub fprec femax;
  mul := SFmul fprec femax; div := SFdiv fprec femax;
  pow := fun _ _ => S754_nan;
  ofz := fun z => binary_normalize fprec femax z 0 false;
  floorz := fun _ => 0%Z;
  le_b := SFleb; lt_b := SFltb |}.
Definition fsqrt : spec_float -> spec_float := SFsqrt fprec femax.
