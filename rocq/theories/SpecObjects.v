(** Specification vocabulary for objects and their parameters. *)
From Coq Require Import String.
From Verif Require Import Base Dict ModelObjects.
Open Scope list_scope.

(** Value of an attribute of the object at [l]. *)
Definition attr (h : heap) (l : nat) (k : string) : option value :=
  match nth_error h l with Some o => attr_of o k | None => None end.

(** Ordinary parameter names: not empty, no double underscore inside, no
    underscore at either end. *)
Definition no_sep (k : string) : Prop := forall a b, k <> (a ++ "__" ++ b)%string.
Definition param_name (k : string) : Prop :=
  k <> EmptyString /\ no_sep k /\ (forall r, k <> ("_" ++ r)%string) /\ (forall r, k <> (r ++ "_")%string).

Section Spec.
Variable classes : nat -> class.

Definition has_protocol (h : heap) (l : nat) : Prop :=
  exists o, nth_error h l = Some o /\ c_protocol (classes (o_class o)) <> NoProtocol.

(** The names that are parameters of the object at [l]. *)
Definition visible (h : heap) (l : nat) (k : string) : Prop :=
  exists o, nth_error h l = Some o /\
    match c_protocol (classes (o_class o)) with
    | Mixin => param_name k /\ exists v, attr_of o k = Some v
    | Sklearn names => In k names
    | NoProtocol => False
    end.

(** The parameter with the given, possibly nested, name. *)
Inductive resolves (h : heap) : nat -> string -> value -> Prop :=
| res_here l k v : visible h l k -> attr h l k = Some v -> resolves h l k v
| res_nested l k l' j v : visible h l k -> attr h l k = Some (VRef l') -> has_protocol h l' ->
    resolves h l' j v -> resolves h l (k ++ "__" ++ j) v.

(** Well formed heaps: attribute names are unique and, if public, ordinary;
    parameters that are references point to objects, and following them never
    comes back ([rank] decreases); scikit-learn objects have all their parameters. *)
Record heap_ok (h : heap) (rank : nat -> nat) : Prop := mk_heap_ok {
  ho_names : forall l o, nth_error h l = Some o -> NoDup (map fst (o_attrs o)) /\
    forall k v, In (k, v) (o_attrs o) -> is_public k = true -> param_name k;
  ho_refs : forall l k l', visible h l k -> attr h l k = Some (VRef l') ->
    l' < length h /\ rank l' < rank l;
  ho_sk : forall l o names, nth_error h l = Some o -> c_protocol (classes (o_class o)) = Sklearn names ->
    NoDup names /\ forall k, In k names -> param_name k /\ exists v, attr_of o k = Some v }.
End Spec.

(** One keyword argument of [set_params], for a parameter or a parameter of a parameter. *)
Inductive setting : Type := Outer (k : string) (v : value) | Nested (k j : string) (v : value).
Definition kwarg_of (s : setting) : string * value :=
  match s with Outer k v => (k, v) | Nested k j v => ((k ++ "__" ++ j)%string, v) end.

Section SetSpec.
Variable classes : nat -> class.

Definition is_mixin (h : heap) (l : nat) : Prop :=
  exists o, nth_error h l = Some o /\ c_protocol (classes (o_class o)) = Mixin.

(** Names [hasattr] finds on the object at [l]. *)
Definition known (h : heap) (l : nat) (k : string) : Prop :=
  exists o, nth_error h l = Some o /\
    ((exists v, attr_of o k = Some v) \/ In k (c_names (classes (o_class o)))).

(** A scikit-learn object none of whose parameters is an object. *)
Definition flat_sk (h : heap) (l : nat) (names : list string) : Prop :=
  exists o, nth_error h l = Some o /\ c_protocol (classes (o_class o)) = Sklearn names /\
    forall n, In n names -> param_name n /\ exists w, attr h l n = Some w /\ forall r, w <> VRef r.

(** The value of the attribute [k] once the settings [ss] on the object itself are done. *)
Definition target (h : heap) (l : nat) (ss : list setting) (k : string) (w : value) : Prop :=
  In (Outer k w) ss \/ (attr h l k = Some w /\ forall w', ~ In (Outer k w') ss).

(** Which settings a call can honour: ordinary names, no two for one parameter;
    a nested name goes through a parameter that is another object, with
    [ParamsMixin] parameters or with plain scikit-learn ones; different
    parameters used that way are different objects. *)
Record settings_ok (h : heap) (l : nat) (ss : list setting) : Prop := mk_settings_ok {
  so_unique : NoDup (map (fun s => fst (kwarg_of s)) ss);
  so_names : forall s, In s ss -> match s with Outer k _ => param_name k | Nested k j _ => param_name k /\ param_name j end;
  so_target : forall k j v, In (Nested k j v) ss -> known h l k ->
    exists m, target h l ss k (VRef m) /\ m <> l /\
      (is_mixin h m \/ exists names, flat_sk h m names /\ In j names /\ forall r, v <> VRef r);
  so_alias : forall k j v k' j' v' m, In (Nested k j v) ss -> In (Nested k' j' v') ss ->
    target h l ss k (VRef m) -> target h l ss k' (VRef m) -> k = k' }.

(** The settings say that attribute [j] of object [m] becomes [v]. *)
Definition sets (h : heap) (l : nat) (ss : list setting) (m : nat) (j : string) (v : value) : Prop :=
  (m = l /\ In (Outer j v) ss /\ known h l j) \/
  (exists k, In (Nested k j v) ss /\ known h l k /\ target h l ss k (VRef m) /\ known h m j).

(** [h'] is [h] with these settings done and nothing else changed. *)
Definition updated (h : heap) (l : nat) (ss : list setting) (h' : heap) : Prop :=
  map o_class h' = map o_class h /\
  forall m j v, attr h' m j = Some v <->
    sets h l ss m j v \/ (attr h m j = Some v /\ ~ exists v', sets h l ss m j v').

(** Same classes and same attribute values. *)
Definition same_heap (h h' : heap) : Prop :=
  map o_class h = map o_class h' /\ forall m j, attr h m j = attr h' m j.
End SetSpec.

Section CloneSpec.
Variable classes : nat -> class.

(** What the constructor leaves when called without arguments: unique names, the
    public ones ordinary, and no objects. *)
Definition init_ok (d : list (string * value)) : Prop :=
  NoDup (map fst d) /\ (forall k v, In (k, v) d -> is_public k = true -> param_name k) /\
  forall k l, ~ In (k, VRef l) d.

(** The object still has the parameters its constructor gives it: it has exactly
    the public names of the constructor. (scikit-learn: the names are those of
    the class; the constructor sets them all.) *)
Definition params_of_class (o : obj) (d : list (string * value)) : Prop :=
  match c_protocol (classes (o_class o)) with
  | Mixin => forall k, is_public k = true -> ((exists v, attr_of o k = Some v) <-> In k (map fst d))
  | Sklearn names => forall k, In k names -> In k (map fst d)
  | NoProtocol => False
  end.

(** [o'] is an unfitted copy of the object [o] at [l]. *)
Definition fresh_copy (h : heap) (l : nat) (o : obj) (d : list (string * value)) (o' : obj) : Prop :=
  o_class o' = o_class o /\ map fst (o_attrs o') = map fst d /\
  (forall k, visible classes h l k -> attr_of o' k = attr_of o k) /\
  (forall k, ~ visible classes h l k -> attr_of o' k = dget String.eqb d k).
End CloneSpec.
