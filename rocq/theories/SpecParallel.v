(** Specification vocabulary for parallel runs. *)
From Verif Require Import Base ModelCore ModelLearn.

(** The exceptions that computing the labels of all open sets may raise: those of
    the single jobs, and that of the cover. *)
Definition may_raise {S : Type} (X : list S) (c : list S -> res (list Z)) (opens : list (list nat)) (after : option exn) (e : exn) : Prop :=
  (exists ids, In ids opens /\ run_clustering X (fun _ => c) 0 ids = Err e) \/ after = Some e.
