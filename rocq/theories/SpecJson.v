(** What the download of the graph and the statistics of the former web application should give. *)
From Coq Require Import String Ascii List ZArith.
From Verif Require Import Base ModelCore SpecCore ModelJson.
Import ListNotations.
Open Scope list_scope. Open Scope nat_scope.

(** Keys without quotes (and backslashes): they need no escapes. *)
Definition plain_key (k : string) : Prop := ~ In """"%char (la k) /\ ~ In "\"%char (la k).
Fixpoint plain (j : json) : Prop :=
  match j with
  | JBool _ | JInt _ => True
  | JList l => fold_right and True (map plain l)
  | JObj l => fold_right and True (map (fun kv => plain_key (fst kv) /\ plain (snd kv)) l)
  end.

(** [k] is the number of connected components: there are [k] nodes, no two of them connected, and every
    node is connected to one of them. *)
Definition component_count (g : graph) (k : nat) : Prop :=
  exists reps, NoDup reps /\ length reps = k /\ (forall a, In a reps -> has_node g a) /\
    (forall a b, In a reps -> In b reps -> connected g a b -> a = b) /\
    (forall z, has_node g z -> exists a, In a reps /\ connected g z a).
