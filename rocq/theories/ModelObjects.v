(** Model of the object protocol of src/tdamapper/_common.py: [ParamsMixin] and
    [clone], on a heap of objects. scikit-learn's [BaseEstimator.get_params] and
    [set_params] (version 1.x) are modelled beside them, because the library
    clones scikit-learn estimators through the same calls.

    An object is its class and its [__dict__], in insertion order. A reference is
    a position in the heap; allocation appends. *)
From Coq Require Import String Ascii.
From Verif Require Import Base Dict ModelCore.
Open Scope nat_scope.
Open Scope list_scope.

(** Attribute values. Everything the object protocol does not look into is [VData]. *)
Inductive value : Type :=
| VNone
| VBool (b : bool)
| VInt (z : Z)
| VStr (s : string)
| VLabels (l : list Z)
| VRef (l : nat)
| VData (n : nat)
| VGraph (g : graph).

Record obj : Type := mkobj { o_class : nat; o_attrs : list (string * value) }.
Definition heap : Type := list obj.

(** Which parameter protocol a class has: [ParamsMixin]; scikit-learn's, with the
    sorted names of the constructor arguments; or none. *)
Inductive protocol : Type := Mixin | Sklearn (names : list string) | NoProtocol.

(** [c_init]: attributes set by the constructor called without arguments, [None]
    if it has required arguments. [c_names]: names found by [hasattr] in the class
    itself (methods). *)
Record class : Type := mkclass {
  c_protocol : protocol;
  c_init : option (list (string * value));
  c_names : list string }.

Section Objects.
Variable classes : nat -> class.

Definition attr_of (o : obj) (k : string) : option value := dget String.eqb (o_attrs o) k.

(** _common.py:135-136 [_is_param_public]. *)
Definition underscore : ascii := "_"%char.
Definition starts_us (k : string) : bool :=
  match k with String c _ => Ascii.eqb c underscore | EmptyString => false end.
Fixpoint ends_us (k : string) : bool :=
  match k with
  | EmptyString => false
  | String c EmptyString => Ascii.eqb c underscore
  | String _ k' => ends_us k'
  end.
Definition is_public (k : string) : bool := negb (starts_us k) && negb (ends_us k).

(** [str.partition("__")]: the parts before and after the first separator. *)
Fixpoint partition_ (k : string) : string * option string :=
  match k with
  | EmptyString => (EmptyString, None)
  | String c k' =>
      match k' with
      | String d k'' =>
          if Ascii.eqb c underscore && Ascii.eqb d underscore then (EmptyString, Some k'')
          else let '(o, i) := partition_ k' in (String c o, i)
      | EmptyString => (k, None)
      end
  end.

(** _common.py:138-142 [_split_param]: splitting at every "__" and joining all but
    the first piece gives back what follows the first separator. *)
Definition split_param (k : string) : string * string :=
  let '(o, i) := partition_ k in (o, match i with None => EmptyString | Some s => s end).

Definition sep : string := "__".

(** The protocol of the object a value refers to. *)
Definition protocol_of (h : heap) (v : value) : protocol :=
  match v with
  | VRef l => match nth_error h l with Some o => c_protocol (classes (o_class o)) | None => NoProtocol end
  | _ => NoProtocol
  end.

(** The entries [k ++ "__" ++ k'] of a nested dictionary (_common.py:155-156). *)
Definition add_nested (k : string) (nested : list (string * value)) (params : list (string * value))
  : list (string * value) :=
  fold_left (fun ps p => dset String.eqb ps (k ++ sep ++ fst p)%string (snd p)) nested params.

(** _common.py:144-157 [get_params], and scikit-learn's. [lim] is the recursion
    limit ([OutOfFuel] is RecursionError). *)
Fixpoint get_params (lim : nat) (h : heap) (deep : bool) (l : nat) : res (list (string * value)) :=
  match lim with
  | 0 => Err OutOfFuel
  | S lim' =>
      do o <- rd h l;
      match c_protocol (classes (o_class o)) with
      | Mixin =>
          for_each (o_attrs o)
            (fun kv params =>
               let '(k, v) := kv in
               if is_public k then
                 let params1 := dset String.eqb params k v in
                 match v, protocol_of h v with
                 | VRef _, NoProtocol => Ok params1
                 | VRef l', _ => if deep then do nested <- get_params lim' h true l';
                                             Ok (add_nested k nested params1)
                                 else Ok params1
                 | _, _ => Ok params1
                 end
               else Ok params) []
      | Sklearn names =>
          for_each names
            (fun k params =>
               match attr_of o k with
               | None => Err AttributeError
               | Some v =>
                   do params1 <- match v, protocol_of h v with
                                 | VRef _, NoProtocol => Ok params
                                 | VRef l', _ => if deep then do nested <- get_params lim' h true l';
                                                             Ok (add_nested k nested params)
                                                 else Ok params
                                 | _, _ => Ok params
                                 end;
                   Ok (dset String.eqb params1 k v)
               end) []
      | NoProtocol => Err AttributeError
      end
  end.

(** [hasattr(self, k)]. *)
Definition has_name (h : heap) (l : nat) (k : string) : bool :=
  match nth_error h l with
  | Some o => dmem String.eqb (o_attrs o) k || existsb (String.eqb k) (c_names (classes (o_class o)))
  | None => false
  end.

(** [setattr(self, k, v)]. *)
Definition set_attr (h : heap) (l : nat) (k : string) (v : value) : res heap :=
  do o <- rd h l;
  wr h l (mkobj (o_class o) (dset String.eqb (o_attrs o) k v)).

(** _common.py:164-171: first loop of [set_params]. State: heap and [nested_params]. *)
Definition outer_step (l : nat) (kv : string * value) (s : heap * list (string * string * value))
  : res (heap * list (string * string * value)) :=
  let '(k, v) := kv in
  let '(h, nested) := s in
  if is_public k then
    let '(k_outer, k_inner) := split_param k in
    match k_inner with
    | EmptyString => if has_name h l k_outer then do h' <- set_attr h l k_outer v; Ok (h', nested)
                     else Ok (h, nested)
    | _ => Ok (h, nested ++ [(k_outer, k_inner, v)])
    end
  else Ok (h, nested).

(** scikit-learn's first loop. State: heap, [valid_params], [nested_params]. *)
Definition sk_step (l : nat) (kv : string * value)
    (s : heap * list (string * value) * list (string * list (string * value)))
  : res (heap * list (string * value) * list (string * list (string * value))) :=
  let '(key, v) := kv in
  let '(h, valid, nested) := s in
  let '(k, sub) := partition_ key in
  if dmem String.eqb valid k then
    match sub with
    | Some sub_key =>
        let old := match dget String.eqb nested k with Some d => d | None => [] end in
        Ok (h, valid, dset String.eqb nested k (dset String.eqb old sub_key v))
    | None => do h' <- set_attr h l k v; Ok (h', dset String.eqb valid k v, nested)
    end
  else Err ValueError.

(** [v.set_params(...)] on a value: the reference, or no such method. *)
Definition as_ref (v : value) : res nat :=
  match v with VRef l => Ok l | _ => Err AttributeError end.

(** _common.py:159-176 [set_params], and scikit-learn's. *)
Fixpoint set_params (lim : nat) (h : heap) (l : nat) (params : list (string * value)) : res heap :=
  match lim with
  | 0 => Err OutOfFuel
  | S lim' =>
      do o <- rd h l;
      match c_protocol (classes (o_class o)) with
      | Mixin =>
          do s <- for_each params (outer_step l) (h, []);
          let '(h1, nested) := s in
          for_each nested
            (fun kjv h2 =>
               let '(k_outer, k_inner, v) := kjv in
               if has_name h2 l k_outer then
                 do o2 <- rd h2 l;
                 match attr_of o2 k_outer with
                 | Some w => do l' <- as_ref w; set_params lim' h2 l' [(k_inner, v)]
                 | None => Err AttributeError
                 end
               else Ok h2) h1
      | Sklearn _ =>
          match params with
          | [] => Ok h
          | _ =>
              do valid <- get_params lim' h true l;
              do s <- for_each params (sk_step l) (h, valid, []);
              let '(h1, valid1, nested) := s in
              for_each nested
                (fun kd h2 =>
                   do w <- dget_res String.eqb valid1 (fst kd);
                   do l' <- as_ref w;
                   set_params lim' h2 l' (snd kd)) h1
          end
      | NoProtocol => Err AttributeError
      end
  end.

(** _common.py:192-203 [clone]: the new object and the heap. *)
Definition clone (lim : nat) (h : heap) (l : nat) : res (nat * heap) :=
  do params <- get_params lim h true l;
  do o <- rd h l;
  match c_init (classes (o_class o)) with
  | None => Err TypeError
  | Some attrs =>
      let l' := length h in
      do h' <- set_params lim (h ++ [mkobj (o_class o) attrs]) l' params;
      Ok (l', h')
  end.
End Objects.
