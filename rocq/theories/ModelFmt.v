(** The texts of nodes: [_fmt] (plot_plotly.py:79-81, plot_pyvis.py:26-28) and the labels made of it.

    Python's [f"{x:.3g}"] of a float asks C for the decimal digits nearest to the exact value of the
    float (ties to even) and lays them out. An int is converted to a float first. *)
From Coq Require Import String Ascii ZArith.
From Flocq Require Import BinarySingleNaN.
From Verif Require Import Base ModelArith ModelCore ModelDraw ModelFloat ModelPlotly.
Local Open Scope Z_scope.

(** Decimal digits, most significant first; no digits for 0. *)
Fixpoint digits_fuel (fuel : nat) (n : Z) (acc : list Z) : list Z :=
  match fuel with
  | O => acc
  | S f => if n <=? 0 then acc else digits_fuel f (n / 10) (n mod 10 :: acc)
  end.
Definition digits (n : Z) : list Z := digits_fuel (S (Z.to_nat (Z.log2 n))) n [].
Definition len {A} (l : list A) : Z := Z.of_nat (length l).

(** The integer nearest to [a / b], ties to even. *)
Definition nearest (a b : Z) : Z :=
  let q := a / b in
  match 2 * (a mod b) ?= b with
  | Lt => q
  | Gt => q + 1
  | Eq => if Z.even q then q else q + 1
  end.

(** The exponent of [a / b]: [10 ^ e <= a / b < 10 ^ (e + 1)]. *)
Definition at_least_pow (a b k : Z) : bool := b * 10 ^ Z.max 0 k <=? a * 10 ^ Z.max 0 (- k).
Definition exponent (a b : Z) : Z :=
  let k := len (digits a) - len (digits b) in
  if at_least_pow a b k then k else k - 1.
(** [p] significant digits of [a / b], as an integer of [p] digits, and the exponent of the first. *)
Definition significant (p a b : Z) : Z * Z :=
  let e := exponent a b in
  let k := p - 1 - e in
  let m := nearest (a * 10 ^ Z.max 0 k) (b * 10 ^ Z.max 0 (- k)) in
  if m =? 10 ^ p then (10 ^ (p - 1), e + 1) else (m, e).

Fixpoint drop_zeros (l : list Z) : list Z :=
  match l with
  | 0 :: l' => drop_zeros l'
  | _ => l
  end.
Definition strip (l : list Z) : list Z := rev (drop_zeros (rev l)).

Definition digit_char (d : Z) : ascii := ascii_of_nat (48 + Z.to_nat d).
Fixpoint text_of (l : list Z) : string :=
  match l with [] => EmptyString | d :: l' => String (digit_char d) (text_of l') end.
Definition zeros (n : Z) : list Z := repeat 0 (Z.to_nat n).

(** An exponent has a sign and at least two digits. *)
Definition exponent_text (e : Z) : string :=
  let ds := digits (Z.abs e) in
  String "e" (String (if e <? 0 then "-" else "+") (text_of (zeros (2 - len ds) ++ ds))).

(** Laying out the digits [ds], the first of which has exponent [e]: CPython's
    [format_float_short] for the format [g]. *)
Definition layout_g (p e : Z) (ds : list Z) : string :=
  let point := e + 1 in
  if (point <=? -4) || (p <? point) then
    match ds with
    | [] => EmptyString
    | [d] => (text_of [d] ++ exponent_text e)%string
    | d :: l => (text_of [d] ++ "." ++ text_of l ++ exponent_text e)%string
    end
  else if point <=? 0 then (text_of [0%Z] ++ "." ++ text_of (zeros (- point) ++ ds))%string
  else if len ds <=? point then text_of (ds ++ zeros (point - len ds))
  else (text_of (firstn (Z.to_nat point) ds) ++ "." ++ text_of (skipn (Z.to_nat point) ds))%string.

Definition fmt_ratio (p a b : Z) : string :=
  let '(m, e) := significant p a b in layout_g p e (strip (digits m)).

Definition sign_text (s : bool) : string := if s then "-"%string else EmptyString.
(** plot_plotly.py:79-81, plot_pyvis.py:26-28 [_fmt(x, max_len)] for a float. *)
Definition fmt_b64 (p : Z) (x : b64) : string :=
  match x with
  | B754_zero s => (sign_text s ++ "0")%string
  | B754_infinity s => (sign_text s ++ "inf")%string
  | B754_nan => "nan"%string
  | B754_finite s m e _ =>
      (sign_text s ++ fmt_ratio p (Zpos m * 2 ^ Z.max 0 e) (2 ^ Z.max 0 (- e)))%string
  end.
(** The same for an int. *)
Definition fmt_int (p n : Z) : string := fmt_b64 p (b_ofz n).
(** [f"{n}"] for an int. *)
Definition str_int (n : Z) : string :=
  (sign_text (n <? 0)%Z ++ if (n =? 0)%Z then "0" else text_of (digits (Z.abs n)))%string.

Definition newline : string := String (ascii_of_nat 10) EmptyString.
(** plot_plotly.py:617-620 [_lbl], from the numbers in the model's texts. *)
Definition plotly_label (t : b64 * Z * nat) : string :=
  let '(c, n, s) := t in
  ("color: " ++ fmt_b64 3 c ++ "<br>node: " ++ str_int n ++ "<br>size: " ++ fmt_int 5 (Z.of_nat s))%string.
(** plot_pyvis.py:250-251. *)
Definition pyvis_label (t : b64 * Z * Z) : string :=
  let '(c, n, s) := t in
  ("color: " ++ fmt_b64 3 c ++ newline ++ "node: " ++ str_int n ++ newline ++ "size: " ++ str_int s)%string.
