(** [cosine] of [utils/_metrics.py:34-43] with sums in any order and grouping, and fused
    multiply-adds, as [@njit(fastmath=True)] and the BLAS routines behind [np.dot] and
    [np.linalg.norm] may compute them. The division and the rest are done as written. *)
From Flocq Require Import Core BinarySingleNaN.
From Verif Require Import Base ModelArith ModelFloat ModelFastmath.
Open Scope nat_scope.

(** [np.dot(x, y)], utils/_metrics.py:38. *)
Fixpoint sum_products (p : plan) (x y : list b64) : b64 :=
  match p with
  | Nothing => b_zero
  | Item i => b_mult (at_ x i) (at_ y i)
  | Join p q => b_plus (sum_products p x y) (sum_products q x y)
  | Fused p i => b_fma (at_ x i) (at_ y i) (sum_products p x y)
  end.

(** utils/_metrics.py:34-43; [p] is how the product is summed up, [q] and [r] the norms. *)
Definition fast_cosine (p q r : plan) (x y : list b64) : res b64 :=
  let xy := sum_products p x y in
  let xx := b_sqrt (sum_squares q x) in
  let yy := b_sqrt (sum_squares r y) in
  let den := b_mult xx yy in
  if eq_b BA den (zero BA) then Err ZeroDivisionError
  else
    let similarity := b_div xy den in
    Ok (b_sqrt (b_mult (b_ofz 2) (b_minus (b_ofz 1) similarity))).
