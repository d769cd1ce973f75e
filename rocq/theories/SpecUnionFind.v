(** Specification of union-find: the equivalence generated by the united pairs. *)
From Coq Require Export Relations.
From Verif Require Import Base ModelUnionFind.

(** Pairs passed to [union] in a history. *)
Definition united {A : Type} (ops : list (uf_op A)) (a b : A) : Prop := In (UUnion a b) ops.

(** The equivalence relation generated by a relation. *)
Definition generated {A : Type} (R : relation A) : relation A := clos_refl_sym_trans A R.

(** Elements mentioned by an operation. *)
Definition mentions {A : Type} (o : uf_op A) : list A :=
  match o with UFind x => [x] | UUnion x y => [x; y] end.

Definition only_mentions {A : Type} (items : list A) (ops : list (uf_op A)) : Prop :=
  forall o x, In o ops -> In x (mentions o) -> In x items.

(** Number of parent links followed from [x] in a parent table, as a relation:
    [links parent x n r] says that [r] is reached after [n] links and is its own
    parent. *)
Inductive links {A : Type} (parent : A -> option A) : A -> nat -> A -> Prop :=
| links_root r : parent r = Some r -> links parent r 0 r
| links_step x y n r : parent x = Some y -> x <> y -> links parent y n r -> links parent x (S n) r.
