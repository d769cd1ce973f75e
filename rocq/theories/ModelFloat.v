(** IEEE double precision as an arithmetic of the model: Flocq's binary64 with
    rounding to nearest, ties to even, overflow to infinity and NaN. This is the
    arithmetic of Python floats and of numpy's float64. [pow] is not provided. *)
From Coq Require Import Reals.
From Flocq Require Import Core BinarySingleNaN.
From Verif Require Import Base ModelArith.
Open Scope nat_scope.

Lemma prec53 : Prec_gt_0 53. Proof. reflexivity. Qed.
Lemma emax1024 : Prec_lt_emax 53 1024. Proof. reflexivity. Qed.

Definition b64 : Type := binary_float 53 1024.
Definition b_plus : b64 -> b64 -> b64 := @Bplus 53 1024 prec53 emax1024 mode_NE.
Definition b_minus : b64 -> b64 -> b64 := @Bminus 53 1024 prec53 emax1024 mode_NE.
Definition b_mult : b64 -> b64 -> b64 := @Bmult 53 1024 prec53 emax1024 mode_NE.
Definition b_div : b64 -> b64 -> b64 := @Bdiv 53 1024 prec53 emax1024 mode_NE.
Definition b_sqrt : b64 -> b64 := @Bsqrt 53 1024 prec53 emax1024 mode_NE.
Definition b_abs : b64 -> b64 := @Babs 53 1024.
Definition b_le : b64 -> b64 -> bool := @Bleb 53 1024.
Definition b_lt : b64 -> b64 -> bool := @Bltb 53 1024.

(** [m * 2 ** e], rounded. *)
Definition b_make (m e : Z) : b64 := @binary_normalize 53 1024 prec53 emax1024 mode_NE m e false.
Definition b_ofz (z : Z) : b64 := b_make z 0.
Definition b_zero : b64 := b_ofz 0.

(** [np.floor], as an integer. Infinities and NaN, which have none, give 0. *)
Definition b_floor (x : b64) : Z :=
  match x with
  | B754_finite s m e _ =>
      let z := if s then Zneg m else Zpos m in
      if (0 <=? e)%Z then (z * 2 ^ e)%Z else (z / 2 ^ (- e))%Z
  | _ => 0%Z
  end.

(** [abs(a - b)]. *)
Definition b_gap (a b : b64) : b64 := b_abs (b_minus a b).

Definition BA : arith := {|
  num := b64; add := b_plus; sub := b_minus; mul := b_mult; div := b_div;
  pow := fun _ _ => B754_nan; ofz := b_ofz; floorz := b_floor; le_b := b_le; lt_b := b_lt |}.
