(** Input validation: C38. *)
From Verif Require Import Base ModelValidate SpecValidate ValidateProp ModelObjects ModelLearn SpecLearn LearnProp LearnResult.
From Verif Require Import ModelCore SpecCore LengthProp.
Open Scope nat_scope.

(** ** C38: input validation *)

(** The inputs that are accepted, and what [fit] goes on with. *)
Theorem C38_accepts_exactly : forall (F O : Type) (is_nan is_inf : F -> bool) (to_float : O -> res F) X y X' y',
  validate is_nan is_inf to_float X y = Ok (X', y') <->
  exists a b xs ys, in_sparse X = false /\ in_array X = Ok a /\ in_array y = Ok b /\
    ~ empty a /\ ~ empty b /\ length (a_shape a) <> 1 /\
    holds_numbers to_float a xs /\ Forall (finite is_nan is_inf) xs /\ X' = mkarr (a_shape a) (ENum xs) /\
    holds_numbers to_float b ys /\ Forall (finite is_nan is_inf) ys /\ y' = mkarr (a_shape b) (ENum ys).
Proof. exact @validate_accepts. Qed.
Print Assumptions C38_accepts_exactly.

(** Numeric arrays: ValueError for exactly the listed reasons, and otherwise the
    arrays as they are. *)
Theorem C38_numeric : forall (F O : Type) (is_nan is_inf : F -> bool) (to_float : O -> res F) X y a b,
  in_array X = Ok a -> in_array y = Ok b -> numeric a -> numeric b ->
  (validate is_nan is_inf to_float X y = Err ValueError <->
     in_sparse X = true \/ empty a \/ empty b \/ length (a_shape a) = 1 \/ complex a \/ complex b \/
     has_non_finite is_nan is_inf a \/ has_non_finite is_nan is_inf b) /\
  (validate is_nan is_inf to_float X y = Ok (a, b) \/ validate is_nan is_inf to_float X y = Err ValueError).
Proof. exact @validate_numeric. Qed.
Print Assumptions C38_numeric.

(** The reasons that do not depend on the kind of the entries. *)
Theorem C38_shape_errors : forall (F O : Type) (is_nan is_inf : F -> bool) (to_float : O -> res F) X y a b,
  in_array X = Ok a -> in_array y = Ok b ->
  in_sparse X = true \/ empty a \/ empty b \/ length (a_shape a) = 1 \/ complex a \/ complex b ->
  validate is_nan is_inf to_float X y = Err ValueError.
Proof. exact @validate_shape. Qed.
Print Assumptions C38_shape_errors.

(** Arrays of objects: the exception is that of the first [float] that raises. *)
Theorem C38_object_errors : forall (F O : Type) (is_nan is_inf : F -> bool) (to_float : O -> res F) X y a b e,
  in_sparse X = false -> in_array X = Ok a -> in_array y = Ok b ->
  ~ empty a -> ~ empty b -> length (a_shape a) <> 1 -> ~ complex a -> ~ complex b ->
  (exists pre o post, a_entries a = EObject (pre ++ o :: post) /\ to_float o = Err e /\
     Forall (fun o' => exists x, to_float o' = Ok x) pre) \/
  ((exists xs, holds_numbers to_float a xs) /\ exists pre o post, a_entries b = EObject (pre ++ o :: post) /\ to_float o = Err e /\
     Forall (fun o' => exists x, to_float o' = Ok x) pre) ->
  validate is_nan is_inf to_float X y = Err e.
Proof. exact @validate_object_fails. Qed.
Print Assumptions C38_object_errors.

(** Arrays of strings, dates and the like: TypeError, not ValueError. *)
Theorem C38_other_types : forall (F O : Type) (is_nan is_inf : F -> bool) (to_float : O -> res F) X y a b n,
  in_sparse X = false -> in_array X = Ok a -> in_array y = Ok b ->
  ~ empty a -> ~ empty b -> length (a_shape a) <> 1 -> ~ complex b ->
  (forall os, a_entries b = EObject os -> exists xs, Forall2 (fun o x => to_float o = Ok x) os xs) ->
  a_entries a = EOther n -> validate is_nan is_inf to_float X y = Err TypeError.
Proof. exact @validate_other. Qed.
Print Assumptions C38_other_types.

(** The points of [fit] are the rows of the array. *)
Theorem C38_rows : forall (F O : Type) (a : ndarray F O) xs n dims,
  a_entries a = ENum xs -> a_shape a = n :: dims -> array_ok a ->
  exists rs, rows a = Ok rs /\ length rs = n /\ forall i, i < n -> exists r, nth_error rs i = Some r /\ is_row a i r.
Proof. exact @rows_spec. Qed.
Print Assumptions C38_rows.

(** Both estimators validate first: on invalid data they raise the exception and
    no object has changed. *)
Theorem C38_fit_invalid : forall (F O : Type) (is_nan is_inf : F -> bool) (to_float : O -> res F) classes beh c_tcover c_tclust c_failsafe
    lim m X y h e,
  validate is_nan is_inf to_float X (match y with None => X | Some y' => y' end) = Err e ->
  run (mapper_algorithm_fit is_nan is_inf to_float classes beh c_tcover c_tclust c_failsafe lim m X y) h = (h, Err e) /\
  run (mapper_clustering_fit is_nan is_inf to_float classes beh c_tcover c_tclust lim m X y) h = (h, Err e).
Proof.
  intros F O is_nan is_inf to_float classes beh c1 c2 c3 lim m X y h e E. split.
  - apply invalid_input_algorithm, E.
  - apply invalid_input_clustering, E.
Qed.
Print Assumptions C38_fit_invalid.

(** A lens with fewer values than points: a cover that returns indices of lens
    values only leaves the other points without node, silently. *)
Theorem C38_shorter_lens : forall (S : Type) (X : list S) clust opens g n,
  mapper_graph X opens clust = Ok g -> (forall ids j, In ids (yields opens) -> In j ids -> j < n) ->
  forall i, n <= i -> ~ exists z k ids, node_attr g z k ids /\ In i ids.
Proof.
  intros S X clust opens g n G H i L. apply (no_set_no_node X clust opens g i G). intros ids I J. specialize (H ids i I J). lia.
Qed.
Print Assumptions C38_shorter_lens.

(** A lens with more values than points: once the cover returns one of the extra
    indices [mapper_graph] fails, with IndexError unless the clustering raises. *)
Theorem C38_longer_lens : forall (S : Type) (X : list S) clust opens ids j,
  In ids (yields opens) -> In j ids -> length X <= j ->
  (exists e, mapper_graph X opens clust = Err e) /\
  ((forall k xs, exists lbls, clust k xs = Ok lbls) -> mapper_graph X opens clust = Err IndexError).
Proof. exact @bad_index_fails. Qed.
Print Assumptions C38_longer_lens.

(** *** Examples. Numbers with NaN and infinity; objects that may not be numbers. *)
Inductive num : Type := Num (z : Z) | NaN | Inf.
Definition tnan (x : num) : bool := match x with NaN => true | _ => false end.
Definition tinf (x : num) : bool := match x with Inf => true | _ => false end.
Definition tfloat (o : option num) : res num := match o with Some x => Ok x | None => Err TypeError end.
Definition tarr (s : list nat) (e : entries num (option num)) : input num (option num) := mkinput false (Ok (mkarr s e)).
Notation tval := (validate tnan tinf tfloat).

Example C38_example :
  tval (tarr [2; 2] (ENum [Num 1; Num 2; Num 3; Num 4]%Z)) (tarr [2] (ENum [Num 0; Num 5]%Z)) =
    Ok (mkarr [2; 2] (ENum [Num 1; Num 2; Num 3; Num 4]%Z), mkarr [2] (ENum [Num 0; Num 5]%Z)) /\
  tval (tarr [1; 2] (EObject [Some (Num 1); Some (Num 2)]%Z)) (tarr [1] (ENum [Num 0]%Z)) =
    Ok (mkarr [1; 2] (ENum [Num 1; Num 2]%Z), mkarr [1] (ENum [Num 0]%Z)) /\
  tval (tarr [1; 2] (EObject [Some (Num 1); None]%Z)) (tarr [1] (ENum [Num 0]%Z)) = Err TypeError /\
  tval (tarr [2] (ENum [Num 1; Num 2]%Z)) (tarr [2] (ENum [Num 0; Num 5]%Z)) = Err ValueError /\
  tval (tarr [2; 0] (ENum [])) (tarr [2] (ENum [Num 0; Num 5]%Z)) = Err ValueError /\
  tval (tarr [1; 1] (ENum [Num 1]%Z)) (tarr [1] (ENum [Inf])) = Err ValueError /\
  tval (tarr [1; 1] (ENum [NaN])) (tarr [1] (ENum [Num 1]%Z)) = Err ValueError /\
  tval (tarr [1; 1] (EComplex 1)) (tarr [1] (ENum [Num 1]%Z)) = Err ValueError /\
  tval (mkinput true (Ok (mkarr [1; 1] (ENum [Num 1]%Z)))) (tarr [1] (ENum [Num 1]%Z)) = Err ValueError /\
  rows (mkarr [2; 2] (ENum [Num 1; Num 2; Num 3; Num 4]%Z) : ndarray num (option num)) =
    Ok [mkarr [2] (ENum [Num 1; Num 2]%Z); mkarr [2] (ENum [Num 3; Num 4]%Z)].
Proof. repeat split. Qed.

Example C38_lengths_example :
  mapper_graph [10; 20; 30]%Z (mkgen [[0; 1]] None) (fun _ => trivial_clustering) =
    Ok (mkgraph [(0%Z, (2, [0; 1]))] [(0%Z, [])]) /\
  mapper_graph [10; 20; 30]%Z (mkgen [[0; 3]] None) (fun _ => trivial_clustering) = Err IndexError.
Proof. split; reflexivity. Qed.

(** "Every rejected input raises ValueError": false for strings. *)
Theorem C38_only_value_errors_refuted :
  exists X y : input num (option num), in_sparse X = false /\ tval X y = Err TypeError.
Proof. exists (tarr [1; 1] (EOther 1)), (tarr [1] (ENum [Num 1]%Z)). split; reflexivity. Qed.
Print Assumptions C38_only_value_errors_refuted.

(** "Accepted data have rows": false for a 0-d [X], which [fit] then cannot iterate over. *)
Theorem C38_accepted_have_rows_refuted :
  exists X y : input num (option num), exists X' y', tval X y = Ok (X', y') /\ rows X' = Err TypeError.
Proof. exists (tarr [] (ENum [Num 1]%Z)), (tarr [1] (ENum [Num 1]%Z)). eexists. eexists. split; reflexivity. Qed.
Print Assumptions C38_accepted_have_rows_refuted.
