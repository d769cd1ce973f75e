(** C16, C17: partition and quickselect. *)
From Verif Require Import Base SpecArray BaseFacts ModelQuickselect QuickselectFacts QuickselectProp.

(** C16. Holds for every boolean comparison, not only for orders. *)
Theorem C16_partition :
  forall (K A B : Type) (ltb : K -> K -> bool)
         (data : list K) (e1 : option (list A)) (e2 : option (list B)) (start fin : nat) (p : K),
  start <= fin <= length data ->
  (forall l, e1 = Some l -> fin <= length l) -> (forall l, e2 = Some l -> fin <= length l) ->
  exists h data' e1' e2' f,
    partition ltb (mkq data e1 e2) start fin p = Ok (h, mkq data' e1' e2') /\
    start <= h <= fin /\
    rearranges start fin f /\ moved f data data' /\ moved_opt f e1 e1' /\ moved_opt f e2 e2' /\
    on_range data' start h (fun x => ltb x p = true) /\
    on_range data' h fin (fun x => ltb x p = false).
Proof. exact @partition_spec. Qed.
Print Assumptions C16_partition.

(** C17, inside the range: the k-th smallest element is put at position k. *)
Theorem C17_quickselect :
  forall (K A B : Type) (ltb : K -> K -> bool),
  strict_weak ltb ->
  forall (data : list K) (e1 : option (list A)) (e2 : option (list B)) (start fin k : nat),
  start <= k < fin -> fin <= length data ->
  (forall l, e1 = Some l -> fin <= length l) -> (forall l, e2 = Some l -> fin <= length l) ->
  exists data' e1' e2' f pk,
    quickselect ltb (mkq data e1 e2) start fin k = Ok (mkq data' e1' e2') /\
    rearranges start fin f /\ moved f data data' /\ moved_opt f e1 e1' /\ moved_opt f e2 e2' /\
    nth_error data' k = Some pk /\
    on_range data' start k (fun x => ltb pk x = false) /\
    on_range data' k fin (fun x => ltb x pk = false).
Proof. exact @quickselect_spec. Qed.
Print Assumptions C17_quickselect.

(** C17, order-statistic reading: with [r] entries of the range strictly below
    the entry placed at [k], and [r + m] not above it, [k - start] lies in
    [[r, r + m)]: the entry at [k] has rank [k - start] in the range. *)
Theorem C17_quickselect_rank :
  forall (K A B : Type) (ltb : K -> K -> bool),
  strict_weak ltb ->
  forall (data : list K) (e1 : option (list A)) (e2 : option (list B)) (start fin k : nat),
  start <= k < fin -> fin <= length data ->
  (forall l, e1 = Some l -> fin <= length l) -> (forall l, e2 = Some l -> fin <= length l) ->
  exists data' e1' e2' pk,
    quickselect ltb (mkq data e1 e2) start fin k = Ok (mkq data' e1' e2') /\
    nth_error data' k = Some pk /\
    length (filter (fun x => ltb x pk) (slice data start fin)) <= k - start
      < length (filter (fun x => negb (ltb pk x)) (slice data start fin)).
Proof. exact @quickselect_rank. Qed.
Print Assumptions C17_quickselect_rank.

(** C17, outside the range nothing changes. *)
Theorem C17_quickselect_outside :
  forall (K A B : Type) (ltb : K -> K -> bool)
         (data : list K) (e1 : option (list A)) (e2 : option (list B)) (start fin k : nat),
  k < start \/ fin <= k ->
  quickselect ltb (mkq data e1 e2) start fin k = Ok (mkq data e1 e2).
Proof. exact @quickselect_outside. Qed.
Print Assumptions C17_quickselect_outside.

(** C17, termination needs only asymmetry of [<]; it therefore also covers
    arrays holding NaN, where [<] is asymmetric but not a weak order. *)
Theorem C17_quickselect_terminates :
  forall (K A B : Type) (ltb : K -> K -> bool),
  asym ltb ->
  forall (data : list K) (e1 : option (list A)) (e2 : option (list B)) (start fin k : nat),
  fin <= length data ->
  (forall l, e1 = Some l -> fin <= length l) -> (forall l, e2 = Some l -> fin <= length l) ->
  exists data' e1' e2' f,
    quickselect ltb (mkq data e1 e2) start fin k = Ok (mkq data' e1' e2') /\
    rearranges start fin f /\ moved f data data' /\ moved_opt f e1 e1' /\ moved_opt f e2 e2'.
Proof. exact @quickselect_terminates. Qed.
Print Assumptions C17_quickselect_terminates.

(** Non-vacuity: a range with duplicates, one extra array. *)
Example C17_hypotheses_met :
  strict_weak Nat.ltb /\ 1 <= 3 < 6 /\ 6 <= length [9; 5; 1; 5; 2; 0; 7] /\
  quickselect (B := nat) Nat.ltb (mkq [9; 5; 1; 5; 2; 0; 7] (Some [0; 1; 2; 3; 4; 5; 6]) None) 1 6 3
  = Ok (mkq [9; 0; 1; 2; 5; 5; 7] (Some [0; 5; 2; 4; 3; 1; 6]) None).
Proof.
  split; [exact nat_ltb_strict_weak|]. split; [lia|]. split; [simpl; lia|].
  vm_compute. reflexivity.
Qed.

Example C16_example :
  partition (A := nat) (B := nat) Nat.ltb (mkq [3; 1; 4; 1; 5] None None) 0 5 4
  = Ok (3, mkq [3; 1; 1; 4; 5] None None).
Proof. vm_compute. reflexivity. Qed.
