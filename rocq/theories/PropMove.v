(** C58: covers do not depend on the coordinates the points are given in. *)
From Coq Require Import String Reals Lra Lia QArith Permutation.
From Verif Require Import Base ModelArith ModelCore ModelVPTree ModelCover ModelMetrics SpecCubical SpecMetric SpecMove VPProp MetricProp MoveProp.
Open Scope R_scope.

(** ** C58: changes of coordinates *)

(** Equal distances give the same open sets, in the same order, with their ids in
    the same order, or stop with the same exception. Every metric, arithmetic and
    setting is covered. *)
Theorem C58_same_distances : forall (T T' D : Type) (leb ltb : D -> D -> bool) (gap : D -> D -> D) (zero : D)
    (d : T -> T -> D) (d' : T' -> T' -> D) (X : list T) (X' : list T'),
  same_distances d d' X X' ->
  (forall c, ball_apply leb ltb gap zero d' c X' = ball_apply leb ltb gap zero d c X) /\
  (forall c, knn_apply leb ltb gap zero d' c X' = knn_apply leb ltb gap zero d c X).
Proof. intros. split; intro c; [apply isometry_ball|apply isometry_knn]; assumption. Qed.
Print Assumptions C58_same_distances.

(** With another unit of length, lengths among the parameters are converted, too. *)
Theorem C58_unit_of_length : forall (T T' : Type) (s : R) (d : T -> T -> R) (d' : T' -> T' -> R) (X : list T) (X' : list T'),
  0 < s -> scaled_distances s d d' X X' ->
  (forall c, ball_apply Rleb Rltb Rgap 0 d' (ball_scaled s c) X' = ball_apply Rleb Rltb Rgap 0 d c X) /\
  (forall c, knn_apply Rleb Rltb Rgap 0 d' (knn_scaled s c) X' = knn_apply Rleb Rltb Rgap 0 d c X).
Proof. intros. split; intro c; [apply scale_ball|apply scale_knn]; assumption. Qed.
Print Assumptions C58_unit_of_length.

(** The named metrics except "cosine": moving all points by [v] changes nothing. *)
Theorem C58_translation : forall (name : string) kw f, get_metric RA sqrt (Name name) kw = Ok f -> name <> "cosine"%string ->
  exists d : list R -> list R -> R, (forall x y, f x y = Ok (d x y)) /\ forall (v : list R) (X : list (list R)), Forall (fun x => length x = length v) X ->
    (forall c, ball_apply Rleb Rltb Rgap 0 d c (map (moved 1 v) X) = ball_apply Rleb Rltb Rgap 0 d c X) /\
    (forall c, knn_apply Rleb Rltb Rgap 0 d c (map (moved 1 v) X) = knn_apply Rleb Rltb Rgap 0 d c X).
Proof.
  intros name kw f E C. destruct (named_moved name kw f E C) as [d [N [H _]]]. exists d. split; [exact N|].
  intros v X Hr. rewrite Forall_forall in Hr. apply C58_same_distances. split; [symmetry; apply map_length|].
  intros i j x y x' y' A B A' B'. rewrite nth_error_map, A in A'. rewrite nth_error_map, B in B'.
  injection A' as <-. injection B' as <-. apply H; apply Hr; eapply nth_error_In; eassumption.
Qed.
Print Assumptions C58_translation.

(** And scaling them by [s] changes the unit of length, except for "minkowski" with [p=0]. *)
Theorem C58_similarity : forall (name : string) kw f, get_metric RA sqrt (Name name) kw = Ok f -> name <> "cosine"%string ->
  kw <> [("p"%string, OrderValue (Ord (A:=RA) 0))] ->
  exists d : list R -> list R -> R, (forall x y, f x y = Ok (d x y)) /\ forall (s : R) (v : list R) (X : list (list R)), 0 < s -> Forall (fun x => length x = length v) X ->
    (forall c, ball_apply Rleb Rltb Rgap 0 d (ball_scaled s c) (map (moved s v) X) = ball_apply Rleb Rltb Rgap 0 d c X) /\
    (forall c, knn_apply Rleb Rltb Rgap 0 d (knn_scaled s c) (map (moved s v) X) = knn_apply Rleb Rltb Rgap 0 d c X).
Proof.
  intros name kw f E C K. destruct (named_moved name kw f E C) as [d [N [_ H]]]. exists d. split; [exact N|].
  intros s v X Hs Hr. rewrite Forall_forall in Hr. apply C58_unit_of_length; [exact Hs|]. split; [symmetry; apply map_length|].
  intros i j x y x' y' A B A' B'. rewrite nth_error_map, A in A'. rewrite nth_error_map, B in B'.
  injection A' as <-. injection B' as <-. apply H; try assumption; apply Hr; eapply nth_error_In; eassumption.
Qed.
Print Assumptions C58_similarity.

(** "cosine" sees directions only. *)
Theorem C58_directions : forall (d : list R -> list R -> R) X X', same_directions X X' ->
  (forall x y, In x (X ++ X') -> In y (X ++ X') -> cosine RA sqrt x y = Ok (d x y)) ->
  (forall c, ball_apply Rleb Rltb Rgap 0 d c X' = ball_apply Rleb Rltb Rgap 0 d c X) /\
  (forall c, knn_apply Rleb Rltb Rgap 0 d c X' = knn_apply Rleb Rltb Rgap 0 d c X).
Proof.
  intros d X X' F Hd.
  assert (G : forall i x x', nth_error X i = Some x -> nth_error X' i = Some x' -> exists s, 0 < s /\ x' = map (Rmult s) x).
  { clear Hd. induction F as [|x x' X X' H F IH]; intros [|i] u u' A B; try discriminate.
    - injection A as <-. injection B as <-. exact H.
    - exact (IH i u u' A B). }
  apply C58_same_distances. split; [clear - F; induction F; simpl; congruence|].
  intros i j x y x' y' A B A' B'. destruct (G i x x' A A') as [s [Hs Ex]]. destruct (G j y y' B B') as [t [Ht Ey]].
  apply nth_error_In in A, B, A', B'.
  assert (Q : Ok (d x' y') = Ok (d x y)).
  { rewrite <- !Hd by (apply in_or_app; auto). rewrite Ex, Ey. apply cosine_scale; assumption. }
  injection Q. auto.
Qed.
Print Assumptions C58_directions.

(** Cubical covers: every column may get its own unit and zero. Columns are either
    constant, or wider than the tolerance [eps] (cover.py:366-367) in both units. *)
Theorem C58_columns : forall (eps : R) (ab : list (R * R)) (X : list (list R)) (lo hi : nat -> R) (c : cubical RA) alg,
  (1 <= cu_n_intervals RA c)%Z -> 0 <= eps ->
  Forall (fun x => length x = length ab) X -> column_bounds (length ab) X lo hi ->
  (forall j, (j < length ab)%nat -> let a := fst (nth j ab (1, 0)) in
     0 < a /\ (lo j = hi j \/ eps < hi j - lo j /\ eps < a * (hi j - lo j))) ->
  cubical_apply RA eps alg c (map (rescaled ab) X) = cubical_apply RA eps alg c X.
Proof. intros. eapply cubical_rescaled; eassumption. Qed.
Print Assumptions C58_columns.

Example C58_hypotheses_met :
  (exists f, get_metric RA sqrt (Name "minkowski") [("p"%string, OrderValue (Ord (A:=RA) 3))] = Ok f) /\
  [("p"%string, OrderValue (Ord (A:=RA) 3))] <> [("p"%string, OrderValue (Ord (A:=RA) 0))] /\
  moved 2 [1; 0] [5; 7] = [2 * 5 + 1; 2 * 7 + 0] /\
  same_directions [[1; 0]; [1; 1]] [[2 * 1; 2 * 0]; [3 * 1; 3 * 1]] /\
  column_bounds 2 [[0; 4]; [3; 4]; [1; 4]] (fun j => nth j [0; 4] 0) (fun j => nth j [3; 4] 0) /\
  (forall j, (j < 2)%nat -> let a := fst (nth j [(2, 1); (5, 0)] (1, 0)) in
     0 < a /\ (nth j [0; 4] 0 = nth j [3; 4] 0 \/
       1 / 100 < nth j [3; 4] 0 - nth j [0; 4] 0 /\ 1 / 100 < a * (nth j [3; 4] 0 - nth j [0; 4] 0))).
Proof.
  split; [eexists; reflexivity|]. split; [intros [= H]; lra|]. split; [reflexivity|]. split; [|split].
  - constructor; [exists 2; split; [lra|reflexivity]|]. constructor; [exists 3; split; [lra|reflexivity]|]. constructor.
  - intros [|[|j]] Hj; [| |lia]; unfold coord; simpl; (split; [|split]).
    + exists [0; 4]. auto.
    + exists [3; 4]. auto.
    + intros x [<-|[<-|[<-|[]]]]; simpl; lra.
    + exists [0; 4]. auto.
    + exists [0; 4]. auto.
    + intros x [<-|[<-|[<-|[]]]]; simpl; lra.
  - intros [|[|j]] Hj; [| |lia]; simpl; split; lra.
Qed.

(** Runs on rational numbers: new units, new zeros, the same cover. *)
Definition tp_flat : tree_params := mktp Flat Disabled (fun c => 3 * c + 1)%nat.
Definition demo_move : cubical QA := @mkcub QA 3 (Some (1 # 4)%Q) tp_flat 1 None.
Example C58_runs :
  let X := [[0; 7]; [5; 8]; [9; 7]; [2; 7]]%Q in
  let X' := [[100; -1]; [600; 1]; [1000; -1]; [300; -1]]%Q in
  cubical_apply QA (1 # 1000) Standard demo_move X' = cubical_apply QA (1 # 1000) Standard demo_move X /\
  cubical_apply QA (1 # 1000) Proximity demo_move X' = cubical_apply QA (1 # 1000) Proximity demo_move X /\
  cubical_apply QA (1 # 1000) Proximity demo_move X = mkgen [[0; 3]; [1]; [2]]%nat None.
Proof. vm_compute. repeat split; reflexivity. Qed.

(** Around the tolerance of numpy ([2 ^ -52]) the unit does matter: two points that
    are in one set, and in two sets when the column is multiplied by 4. *)
Theorem C58_tolerance_refuted : exists (c : cubical QA) (X : list (list Q)),
  let eps := (1 # 4503599627370496)%Q in
  length (yields (cubical_apply QA eps Standard c X)) = 1%nat /\
  length (yields (cubical_apply QA eps Standard c (map (map (fun q => Qred (4 * q))) X))) = 2%nat.
Proof. exists demo_move, [[0]; [1 # 4503599627370496]]%Q. vm_compute. split; reflexivity. Qed.
Print Assumptions C58_tolerance_refuted.

(** The order of the points matters for ball covers: another order, another number of sets. *)
Definition line_metric (a b : Z) : Z := Z.abs (a - b).
Definition line_gap (a b : Z) : Z := Z.abs (a - b).
Theorem C58_point_order_refuted : exists (c : ball_cover Z) (X X' : list Z), Permutation X X' /\
  length (yields (ball_apply Z.leb Z.ltb line_gap 0%Z line_metric c X)) = 2%nat /\
  length (yields (ball_apply Z.leb Z.ltb line_gap 0%Z line_metric c X')) = 1%nat.
Proof.
  exists (mkball 2%Z tp_flat 1 None), [0; 1; 2]%Z, [1; 0; 2]%Z. split; [apply perm_swap|]. vm_compute. split; reflexivity.
Qed.
Print Assumptions C58_point_order_refuted.

(** With [p=0] distances count the coordinates that differ, whatever the unit. *)
Theorem C58_order_zero_refuted : exists f x y, get_metric QA (fun q => q) (Name "minkowski") [("p"%string, OrderValue (Ord (A:=QA) 0%Q))] = Ok f /\
  f x y = Ok 1%Q /\ f (map (Qmult 2) x) (map (Qmult 2) y) = Ok 1%Q.
Proof. eexists; exists [0; 3]%Q, [0; 4]%Q. split; [reflexivity|]. vm_compute. split; reflexivity. Qed.
Print Assumptions C58_order_zero_refuted.
