(** Double precision with a power function, for the default of [overlap_frac]
    (cover.py:340-342). The C library's [pow] is not known: it is a parameter. *)
From Verif Require Import Base ModelArith ModelFloat.

Definition BAP (p : b64 -> b64 -> b64) : arith := {|
  num := b64; add := b_plus; sub := b_minus; mul := b_mult; div := b_div;
  pow := p; ofz := b_ofz; floorz := b_floor; le_b := b_le; lt_b := b_lt |}.
