(** Vocabulary for texts that can be read back in one way only. *)
From Coq Require Import String Ascii.
From Verif Require Import Base Dict ModelObjects SpecObjects ModelRepr SpecRepr.
Open Scope nat_scope.
Open Scope list_scope.

Definition opening (c : ascii) : bool := existsb (Ascii.eqb c) ["("; "["; "{"]%char.
Definition closing (c : ascii) : bool := existsb (Ascii.eqb c) [")"; "]"; "}"]%char.

(** How many brackets are open after a text that begins inside [d] of them;
    [None] if one is closed that was not opened, or if there is a comma outside of
    all brackets. *)
Fixpoint level (d : nat) (s : string) : option nat :=
  match s with
  | EmptyString => Some d
  | String c s' =>
      if opening c then level (S d) s'
      else if closing c then match d with 0 => None | S d' => level d' s' end
      else if Ascii.eqb c "," then match d with 0 => None | _ => level d s' end
      else level d s'
  end.

(** A text that can be one argument in a list of arguments: its brackets match,
    and its commas are inside of them. *)
Definition one_item (s : string) : Prop := level 0 s = Some 0.

Fixpoint chars (s : string) : list ascii :=
  match s with EmptyString => [] | String c s' => c :: chars s' end.

(** A name: no brackets, commas or equality signs. *)
Definition simple_name (s : string) : Prop :=
  Forall (fun c => opening c = false /\ closing c = false /\ c <> ","%char /\ c <> "="%char) (chars s).

Section Spec.
Variable classes : nat -> class.
Variable class_name : nat -> string.
Variable repr_atom : value -> string.
Variable repr_foreign : obj -> string.

Definition mixin (c : nat) : Prop := c_protocol (classes c) = Mixin.

(** The classes of the library have different, ordinary names. *)
Definition names_differ : Prop :=
  (forall c, mixin c -> simple_name (class_name c)) /\
  forall c c', mixin c -> mixin c' -> class_name c = class_name c' -> c = c'.

(** The text of something that is no object of the library: one item, that does
    not look like the construction of one. *)
Definition plain_text (s : string) : Prop :=
  one_item s /\ forall c r, mixin c -> s <> (class_name c ++ "(" ++ r)%string.

(** The texts of all parameters that are no objects, and of all other objects, are
    such; names of parameters are ordinary. *)
Definition plain_texts (h : heap) : Prop :=
  forall l o, nth_error h l = Some o ->
    (mixin (o_class o) -> forall k v, In (k, v) (public_entries (o_attrs o)) ->
       simple_name k /\ (plain v -> plain_text (repr_atom v))) /\
    (~ mixin (o_class o) -> plain_text (repr_foreign o)).
End Spec.
