(** Model of [ParamsMixin.__repr__] (src/tdamapper/_common.py:178-190), and of what
    Python does when the text it returns is evaluated. *)
From Coq Require Import String.
From Verif Require Import Base Dict ModelCore ModelObjects.
Open Scope nat_scope.
Open Scope list_scope.

(** The expressions [__repr__] writes: calls of a constructor with keyword
    arguments, and texts written by other [__repr__] methods. *)
Inductive rexpr : Type :=
| RAtom (text : string)
| RCall (cls : nat) (args : list (string * rexpr)).

Section Repr.
Variable classes : nat -> class.
(** [__class__.__name__]. *)
Variable class_name : nat -> string.
(** [repr] of values that are not objects of the heap. *)
Variable repr_atom : value -> string.
(** [repr] of objects without [ParamsMixin]; it may look at the class and at the
    attributes, but not further (simplification). *)
Variable repr_foreign : obj -> string.

(** _common.py:189-190: the text of an expression. *)
Fixpoint render (e : rexpr) : string :=
  match e with
  | RAtom s => s
  | RCall c args =>
      (class_name c ++ "(" ++
       String.concat ", " (map (fun a => let '(k, x) := a in k ++ "=" ++ render x) args) ++ ")")%string
  end.

(** _common.py:178-190 [__repr__] and the builtin [repr], which calls it. The
    texts are built as expressions, because they are evaluated below; [render]
    gives the text. [getattr] on the object made without arguments looks only at
    its attributes, not at the methods of the class. [lim] is the recursion limit. *)
Fixpoint repr_expr (lim : nat) (h : heap) (v : value) : res rexpr :=
  match lim with
  | 0 => Err OutOfFuel
  | S lim' =>
      match v with
      | VRef l =>
          do o <- rd h l;
          match c_protocol (classes (o_class o)) with
          | Mixin =>
              match c_init (classes (o_class o)) with
              | None => Err TypeError
              | Some d =>
                  do args <- for_each (o_attrs o)
                    (fun kv args =>
                       let '(k, v) := kv in
                       if is_public k then
                         match dget String.eqb d k with
                         | None => Err AttributeError
                         | Some v_default =>
                             do e_default <- repr_expr lim' h v_default;
                             do e <- repr_expr lim' h v;
                             Ok (if String.eqb (render e) (render e_default) then args
                                 else args ++ [(k, e)])
                         end
                       else Ok args) [];
                  Ok (RCall (o_class o) args)
              end
          | _ => Ok (RAtom (repr_foreign o))
          end
      | _ => Ok (RAtom (repr_atom v))
      end
  end.

Definition repr (lim : nat) (h : heap) (v : value) : res string :=
  do e <- repr_expr lim h v; Ok (render e).

(** What the text written by another [__repr__] evaluates to: a value, or a new object. *)
Variable read_atom : string -> option (value + obj).

(** A constructor call with keyword arguments: every constructor of the library
    stores each argument in the attribute of the same name, the others are the
    defaults (core.py:320-324, 365, cover.py:111-127, 212-228, 317-331, 449-465,
    507-523, 589-605, learn.py:55-63, 133-145). An argument the constructor does
    not have is a TypeError. *)
Definition construct (c : nat) (args : list (string * value)) : res obj :=
  match c_init (classes c) with
  | None => Err TypeError
  | Some d =>
      do attrs <- for_each args
        (fun kv attrs =>
           if is_public (fst kv) && dmem String.eqb d (fst kv)
           then Ok (dset String.eqb attrs (fst kv) (snd kv)) else Err TypeError) d;
      Ok (mkobj c attrs)
  end.

(** [eval]: arguments from left to right, then the call. (Parsing the text back
    into the expression is not modelled.) *)
Fixpoint eval (h : heap) (e : rexpr) {struct e} : res (value * heap) :=
  match e with
  | RAtom s =>
      match read_atom s with
      | Some (inl v) => Ok (v, h)
      | Some (inr o) => Ok (VRef (length h), h ++ [o])
      | None => Err ValueError
      end
  | RCall c args =>
      do r <- (fix eval_args (h : heap) (args : list (string * rexpr)) :=
                 match args with
                 | [] => Ok ([], h)
                 | (k, x) :: rest =>
                     do r <- eval h x;
                     do r' <- eval_args (snd r) rest;
                     Ok ((k, fst r) :: fst r', snd r')
                 end) h args;
      do o <- construct c (fst r);
      Ok (VRef (length (snd r)), snd r ++ [o])
  end.
End Repr.

(** *** The classes of the library with [ParamsMixin], and what their constructors
    set when called without arguments. [VData n] stands for the float [n / 2].
    Any other number is a class of another library, with scikit-learn's protocol
    and no parameters. *)
Local Open Scope string_scope.
Definition tree_defaults (capacity radius : value) : list (string * value) :=
  [("kind", VStr "flat"); ("leaf_capacity", capacity); ("leaf_radius", radius); ("pivoting", VStr "disabled")].
Definition metric_defaults : list (string * value) := [("metric", VStr "euclidean"); ("metric_params", VNone)].
Definition cubical_defaults : list (string * value) := [("n_intervals", VInt 1); ("overlap_frac", VNone)].
Definition library_init (c : nat) : list (string * value) :=
  match c with
  | 0 => []                                                                  (* core.py:273 TrivialCover *)
  | 1 => [("clustering", VNone); ("verbose", VBool true)]                    (* core.py:320-324 FailSafeClustering *)
  | 2 => []                                                                  (* core.py:365-366 TrivialClustering *)
  | 3 => ("radius", VData 2) :: (metric_defaults ++ tree_defaults (VInt 1) VNone)%list      (* cover.py:111-127 BallCover *)
  | 4 => ("neighbors", VInt 1) :: (metric_defaults ++ tree_defaults VNone (VData 0))%list   (* cover.py:212-228 KNNCover *)
  | 5 | 6 => (cubical_defaults ++ tree_defaults (VInt 1) VNone)%list         (* cover.py:449-465, 507-523 *)
  | 7 => (cubical_defaults ++ ("algorithm", VStr "proximity") :: tree_defaults (VInt 1) VNone)%list (* cover.py:589-605 CubicalCover *)
  | 8 => [("cover", VNone); ("clustering", VNone); ("n_jobs", VInt 1)]       (* learn.py:55-63 MapperClustering *)
  | 9 => [("cover", VNone); ("clustering", VNone); ("failsafe", VBool true);
          ("verbose", VBool true); ("n_jobs", VInt 1)]                       (* learn.py:133-145 MapperAlgorithm *)
  | _ => []
  end.
Definition library (c : nat) : class :=
  mkclass (if Nat.leb c 9 then Mixin else Sklearn []) (Some (library_init c)) ["get_params"; "set_params"; "fit"; "apply"].
Definition library_name (c : nat) : string :=
  nth c ["TrivialCover"; "FailSafeClustering"; "TrivialClustering"; "BallCover"; "KNNCover"; "ProximityCubicalCover";
         "StandardCubicalCover"; "CubicalCover"; "MapperClustering"; "MapperAlgorithm"] "Estimator".
