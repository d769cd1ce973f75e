(** Specification vocabulary for [proximity_net] and for failures of the jobs. *)
From Verif Require Import Base ModelCore SpecCore.
Open Scope nat_scope.

(** [s] is what the search answers for the point [X[c]]. *)
Definition answer_at {S : Type} (X : list S) (search : S -> res (list nat)) (c : nat) (s : list nat) : Prop :=
  exists x, nth_error X c = Some x /\ search x = Ok s.

(** [sets] are the answers for the points [centers], none of which belongs to
    an earlier set. *)
Definition greedy_net {S : Type} (X : list S) (search : S -> res (list nat))
    (centers : list nat) (sets : list (list nat)) : Prop :=
  StronglySorted lt centers /\
  Forall2 (fun c s => answer_at X search c s /\ s <> []) centers sets /\
  forall m m' c s, m' < m -> nth_error centers m = Some c -> nth_error sets m' = Some s -> ~ In c s.

(** The [k]-th open set makes its job raise [e]. *)
Definition job_fails {S : Type} (X : list S) (opens : list (list nat)) (clust : clustering S)
    (k : nat) (e : exn) : Prop :=
  exists ids, nth_error opens k = Some ids /\
    ((e = IndexError /\ exists j, In j ids /\ length X <= j) \/
     (exists xs, Forall2 (fun j x => nth_error X j = Some x) ids xs /\ clust k xs = Err e)).
Definition job_succeeds {S : Type} (X : list S) (opens : list (list nat)) (clust : clustering S)
    (k : nat) : Prop :=
  exists ids lbls, local_labels X opens clust k ids lbls.
