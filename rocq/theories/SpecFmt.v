(** Reading numbers: what a decimal numeral such as [-1.23e+04] stands for. *)
From Coq Require Import String Ascii ZArith Reals.
From Flocq Require Import Core.
From Verif Require Import Base.
Local Open Scope Z_scope.

Definition ten : radix := Build_radix 10 (refl_equal true).
(** [m * 10 ^ e]. *)
Definition dec (m e : Z) : R := (IZR m * bpow ten e)%R.

Definition digit_of (c : ascii) : option Z :=
  let n := Z.of_nat (nat_of_ascii c) in
  if (48 <=? n) && (n <=? 57) then Some (n - 48) else None.
(** The longest prefix of digits, and what follows it. *)
Fixpoint take_digits (s : string) : list Z * string :=
  match s with
  | EmptyString => ([], EmptyString)
  | String c s' =>
      match digit_of c with
      | Some d => let '(ds, r) := take_digits s' in (d :: ds, r)
      | None => ([], s)
      end
  end.
Definition number_of (ds : list Z) : Z := fold_left (fun a d => 10 * a + d) ds 0.

(** Digits, then possibly a point and digits, then possibly an exponent with its sign:
    mantissa and exponent. *)
Definition read_fraction (s : string) : option (list Z * list Z * string) :=
  let '(i, r) := take_digits s in
  match i with
  | [] => None
  | _ =>
      match r with
      | String "." r' => let '(fr, r2) := take_digits r' in Some (i, fr, r2)
      | _ => Some (i, [], r)
      end
  end.
Definition read_exponent (s : string) : option Z :=
  match s with
  | EmptyString => Some 0
  | String "e" (String c s') =>
      let '(ds, r) := take_digits s' in
      match ds, r with
      | _ :: _, EmptyString =>
          if (c =? "-")%char then Some (- number_of ds)
          else if (c =? "+")%char then Some (number_of ds) else None
      | _, _ => None
      end
  | _ => None
  end.
Definition read_unsigned (s : string) : option (Z * Z) :=
  match read_fraction s with
  | None => None
  | Some (i, fr, r) =>
      match read_exponent r with
      | None => None
      | Some e => Some (number_of (i ++ fr), e - Z.of_nat (length fr))
      end
  end.
(** The real number a text stands for. *)
Definition read_decimal (s : string) : option R :=
  match s with
  | String "-" s' => option_map (fun p => (- dec (fst p) (snd p))%R) (read_unsigned s')
  | _ => option_map (fun p => dec (fst p) (snd p)) (read_unsigned s)
  end.

(** [v] can be written with [p] significant digits. *)
Definition has_digits (p : Z) (v : R) : Prop := exists m e, Z.abs m < 10 ^ p /\ v = dec m e.
(** [v] is a number of [p] significant digits nearest to [x]. *)
Definition nearest_decimal (p : Z) (x v : R) : Prop :=
  has_digits p v /\ forall w, has_digits p w -> (Rabs (v - x) <= Rabs (w - x))%R.

(** *** The form of a text *)
Fixpoint all_digits (s : string) : Prop :=
  match s with EmptyString => True | String c s' => digit_of c <> None /\ all_digits s' end.
Definition first_char (s : string) : option ascii :=
  match s with EmptyString => None | String c _ => Some c end.
Fixpoint last_char (s : string) : option ascii :=
  match s with EmptyString => None | String c EmptyString => Some c | String _ s' => last_char s' end.

(** [s] is a text for [v]: a sign if [v] is negative; an integer part without leading
    zeros; possibly a point and digits, not ending with a zero; and, if the absolute
    value is below [10 ^ -4] or at least [10 ^ p], an exponent with a sign and at least
    two digits after a single digit before the point. *)
Definition has_shape (p : Z) (v : R) (s : string) : Prop :=
  exists sg a l t, s = (sg ++ a ++ l ++ t)%string /\
    (((0 < v)%R /\ sg = EmptyString) \/ ((v < 0)%R /\ sg = "-"%string)) /\
    all_digits a /\ a <> EmptyString /\ (a = "0"%string \/ first_char a <> Some "0"%char) /\
    (l = EmptyString \/ exists l', l = String "." l' /\ all_digits l' /\ l' <> EmptyString /\ last_char l' <> Some "0"%char) /\
    (((bpow ten (-4) <= Rabs v < bpow ten p)%R /\ t = EmptyString) \/
     (~ (bpow ten (-4) <= Rabs v < bpow ten p)%R /\ String.length a = 1%nat /\ a <> "0"%string /\
      exists c ds, t = String "e" (String c ds) /\ all_digits ds /\ (2 <= String.length ds)%nat /\
        ((2 < String.length ds)%nat -> first_char ds <> Some "0"%char) /\
        (((Rabs v < 1)%R /\ c = "-"%char) \/ ((1 <= Rabs v)%R /\ c = "+"%char)))).

(** Of two numbers of [p] digits equally near to [x], [v] is the one whose last digit is even. *)
Definition ties_to_even (p : Z) (x v : R) : Prop :=
  exists m e, v = dec m e /\ 10 ^ (p - 1) <= Z.abs m < 10 ^ p /\
    forall w, has_digits p w -> w <> v -> Rabs (w - x) = Rabs (v - x) -> Z.even m = true.
