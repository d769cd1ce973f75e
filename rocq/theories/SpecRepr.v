(** Specification vocabulary for the texts of [__repr__]. *)
From Coq Require Import String.
From Verif Require Import Base Dict ModelObjects SpecObjects ModelRepr.
Open Scope list_scope.

Definition plain (v : value) : Prop := forall l, v <> VRef l.

Definition public_entries (attrs : list (string * value)) : list (string * value) :=
  filter (fun kv => is_public (fst kv)) attrs.

(** [pieces text d kvs ts]: [ts] are the arguments [k=text] of the public
    attributes among [kvs], in order, whose text is not that of the default in [d]. *)
Inductive pieces (text : value -> string -> Prop) (d : list (string * value))
  : list (string * value) -> list string -> Prop :=
| pc_nil : pieces text d [] []
| pc_private k v kvs ts : is_public k = false -> pieces text d kvs ts -> pieces text d ((k, v) :: kvs) ts
| pc_default k v v0 t kvs ts : is_public k = true -> dget String.eqb d k = Some v0 ->
    text v0 t -> text v t -> pieces text d kvs ts -> pieces text d ((k, v) :: kvs) ts
| pc_shown k v v0 t0 t kvs ts : is_public k = true -> dget String.eqb d k = Some v0 ->
    text v0 t0 -> text v t -> t <> t0 -> pieces text d kvs ts ->
    pieces text d ((k, v) :: kvs) ((k ++ "=" ++ t)%string :: ts).

Section Spec.
Variable classes : nat -> class.
Variable repr_atom : value -> string.
Variable repr_foreign : obj -> string.
Variable read_atom : string -> option (value + obj).

(** The objects with [ParamsMixin] were made by their constructor: they have its
    public attributes, in its order. *)
Definition objects_ok (h : heap) : Prop :=
  forall l o, nth_error h l = Some o -> c_protocol (classes (o_class o)) = Mixin ->
    exists d, c_init (classes (o_class o)) = Some d /\ init_ok d /\ NoDup (map fst (o_attrs o)) /\
      map fst (public_entries (o_attrs o)) = map fst (public_entries d).

(** The texts of the other values can be read back, as something with the same text. *)
Definition readable_value (v : value) : Prop :=
  exists v', plain v' /\ read_atom (repr_atom v) = Some (inl v') /\ repr_atom v' = repr_atom v.
Definition readable_object (o : obj) : Prop :=
  exists o', c_protocol (classes (o_class o')) <> Mixin /\ read_atom (repr_foreign o) = Some (inr o') /\
    repr_foreign o' = repr_foreign o.
Definition readable (h : heap) : Prop :=
  forall l o, nth_error h l = Some o ->
    (c_protocol (classes (o_class o)) = Mixin ->
       forall k v, In (k, v) (public_entries (o_attrs o)) -> plain v -> readable_value v) /\
    (c_protocol (classes (o_class o)) <> Mixin -> readable_object o).
End Spec.

(** Same objects, but for attributes that are no parameters: what fitting does. *)
Definition same_public (classes : nat -> class) (h h' : heap) : Prop :=
  forall l, match nth_error h l, nth_error h' l with
            | Some o, Some o' =>
                o_class o' = o_class o /\
                (c_protocol (classes (o_class o)) = Mixin -> public_entries (o_attrs o') = public_entries (o_attrs o)) /\
                (c_protocol (classes (o_class o)) <> Mixin -> o' = o)
            | None, None => True
            | _, _ => False
            end.
