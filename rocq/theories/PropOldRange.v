(** C75: the range of the overlap in the former app. *)
From Coq Require Import String Reals Lra.
From Verif Require Import Base BaseFacts ModelArith ModelCore ModelVPTree ModelCover SpecCubical CubicalFacts CubicalProp ModelOldControls SpecOldControls.
Open Scope R_scope.

(** The cover that [CubicalCover] fits (cover.py:589-605, 589-621, algorithm
    "proximity"), for the numbers behind the floats. *)
Definition cubical_of (number : nat -> R) (rng : nat -> nat) (n : Z) (overlap : option nat) : cubical RA :=
  @mkcub RA n (option_map number overlap) (mktp Flat Disabled rng) 1 None.

(** The control for the overlap goes from 0 to 1. Within these bounds, and for
    reals, the cover can be fitted to data exactly if the overlap is neither 0, a
    ValueError, nor 1, a ZeroDivisionError. *)
Theorem C75_overlap_range : forall number rng (eps : R) m n p (X : list (list R)),
  (1 <= n)%Z -> 0 <= eps -> Forall (fun x => length x = m) X -> X <> [] -> 0 <= number p <= 1 ->
  ((exists search, cubical_fit RA eps (cubical_of number rng n (Some p)) X = Ok search) <-> number p <> 0 /\ number p <> 1) /\
  (number p = 0 -> cubical_fit RA eps (cubical_of number rng n (Some p)) X = Err ValueError) /\
  (number p = 1 -> cubical_fit RA eps (cubical_of number rng n (Some p)) X = Err ZeroDivisionError).
Proof.
  intros number rng eps m n p X Hn He Hr Hx Hp.
  assert (Z0 : number p = 0 -> cubical_fit RA eps (cubical_of number rng n (Some p)) X = Err ValueError).
  { intros E. apply (cubical_overlap_nonpos eps (cubical_of number rng n (Some p)) X (number p) Proximity); [reflexivity|lra|exact Hx]. }
  assert (Z1 : number p = 1 -> cubical_fit RA eps (cubical_of number rng n (Some p)) X = Err ZeroDivisionError).
  { intros E. apply cubical_overlap_one; [cbn; f_equal; exact E|exact Hx]. }
  split; [|split; assumption]. split.
  - intros [s E]. split; intros Q; [rewrite (Z0 Q) in E|rewrite (Z1 Q) in E]; discriminate E.
  - intros [N0 N1]. destruct (column_bounds_exist m X Hx) as [lo [hi B]].
    destruct (cubical_fit_ok m n eps X lo hi Hn He Hr Hx B (cubical_of number rng n (Some p)) (number p)) as [s [E _]];
      try reflexivity; try exact N1; try (cbn; lia); try (cbn; discriminate); [lra|].
    unfold cubical_fit. destruct X as [|x0 X']; [congruence|]. rewrite E. eexists. reflexivity.
Qed.
Print Assumptions C75_overlap_range.

(** If "Set overlap" is not checked, as by default, it can always be fitted to data
    with columns. *)
Theorem C75_default_overlap : forall number rng (eps : R) m n (X : list (list R)),
  (1 <= n)%Z -> 0 <= eps -> (1 <= m)%nat -> Forall (fun x => length x = m) X -> X <> [] ->
  exists search, cubical_fit RA eps (cubical_of number rng n None) X = Ok search.
Proof.
  intros number rng eps m n X Hn He Hm Hr Hx.
  destruct (default_overlap_exists m Hm) as [ov D]. pose proof (proj2 (default_overlap_computed m ov Hm) D) as C.
  destruct D as [D _].
  destruct (column_bounds_exist m X Hx) as [lo [hi B]].
  destruct (cubical_fit_ok m n eps X lo hi Hn He Hr Hx B (cubical_of number rng n None) ov) as [s [E _]];
    try reflexivity; try exact C; try (cbn; lia); try (cbn; discriminate); [lra|lra|].
  unfold cubical_fit. destruct X as [|x0 X']; [congruence|]. rewrite E. eexists. reflexivity.
Qed.
Print Assumptions C75_default_overlap.

(** So the control offers values that the cover refuses. *)
Theorem C75_range_refuted : exists number p, 0 <= number p <= 1 /\
  forall rng eps n X, X <> [] -> cubical_fit RA eps (cubical_of number rng n (Some p)) X = Err ValueError.
Proof.
  exists (fun _ => 0), 0%nat. split; [lra|]. intros rng eps n X Hx.
  apply (cubical_overlap_nonpos eps (cubical_of (fun _ => 0) rng n (Some 0%nat)) X 0 Proximity); [reflexivity|lra|exact Hx].
Qed.
Print Assumptions C75_range_refuted.

Example C75_range_example : exists search,
  cubical_fit RA (1 / 1000000) (cubical_of (fun _ => 1 / 4) (fun c => c) 10 (Some 5%nat)) [[0; 1]; [2; 3]; [5; 8]] = Ok search.
Proof.
  apply (C75_overlap_range (fun _ => 1 / 4) (fun c => c) (1 / 1000000) 2 10 5 [[0; 1]; [2; 3]; [5; 8]]); [lia|lra| |discriminate|lra|split; lra].
  repeat (constructor; [reflexivity|]). constructor.
Qed.
