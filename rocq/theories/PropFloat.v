(** C52, C53: covers computed in double precision. *)
From Coq Require Import String Reals Lra Sorted.
From Flocq Require Import Core BinarySingleNaN.
From Verif Require Import Base ModelCore SpecNet ModelVPTree ModelArith ModelCover SpecCover ModelMetrics SpecMetric SpecMetrics
  SpecCubical ModelFloat FloatFacts SpecDouble FloatCover FloatMetric FloatNamed FloatGrid FloatCubicalFit ModelFastmath FastmathProp.
Open Scope R_scope.

(** Trees for the examples. *)
Definition flat : tree_params := mktp Flat Disabled (fun c => 3 * c + 1)%nat.
Definition hier : tree_params := mktp Hierarchical Disabled (fun c => 3 * c + 1)%nat.

(** ** C52: covers on distances computed in double precision *)

(** The named distances on vectors of doubles up to [2 ^ 500]: finite, at least 0,
    symmetric, 0 from a vector to itself, and close to the real distance. *)
Theorem C52_named_accuracy : forall name m,
  In name ["euclidean"; "manhattan"; "chebyshev"]%string -> (Z.of_nat m <= 2 ^ 20)%Z ->
  exists (d : list b64 -> list b64 -> b64) (D : list R -> list R -> R),
    get_metric BA b_sqrt (Name name) [] = Ok (total_fn BA d) /\
    get_metric RA sqrt (Name name) [] = Ok (total_fn RA D) /\
    (forall x, moderate m x -> value (d x x) = 0) /\
    forall x y, moderate m x -> moderate m y ->
      magnitude (d x y) /\ value (d x y) = value (d y x) /\
      Rabs (value (d x y) - D (reals x) (reals y)) <= rounding_error m (D (reals x) (reals y)).
Proof.
  intros name m Hn Hm. destruct (named_double name m Hn Hm) as [d [D [G1 [G2 [[W1 W2] [M Ac]]]]]].
  exists d, D. repeat (split; [assumption|]). intros x y Hx Hy. destruct (W1 x y Hx Hy). auto.
Qed.
Print Assumptions C52_named_accuracy.

(** [BallCover.search] with a named distance: every id found is closer than the
    radius, every point closer by a margin of 4 rounding errors is found. *)
Theorem C52_ball_search : forall name m (c : ball_cover b64) (X : list (list b64)),
  In name ["euclidean"; "manhattan"; "chebyshev"]%string -> (Z.of_nat m <= 2 ^ 20)%Z ->
  Forall (moderate m) X -> X <> [] -> magnitude (bc_radius c) -> opt_magnitude (bc_leaf_radius c) ->
  (1 <= bc_leaf_capacity c)%nat -> tp_kind (bc_tree c) <> OtherKind ->
  exists d D search,
    get_metric BA b_sqrt (Name name) [] = Ok (total_fn BA d) /\
    get_metric RA sqrt (Name name) [] = Ok (total_fn RA D) /\
    ball_fit b_le b_lt b_gap b_zero d c X = Ok search /\
    forall q, moderate m q -> exists ids, search q = Ok ids /\ ball_of m d D (value (bc_radius c)) X q ids.
Proof. exact named_ball_search. Qed.
Print Assumptions C52_ball_search.

(** [BallCover.apply] with a named distance covers every point, whatever rounding
    does to the distances; each set is the ball of its center up to rounding. *)
Theorem C52_ball_cover : forall name m (c : ball_cover b64) (X : list (list b64)),
  In name ["euclidean"; "manhattan"; "chebyshev"]%string -> (Z.of_nat m <= 2 ^ 20)%Z ->
  Forall (moderate m) X -> finite (bc_radius c) -> 0 < value (bc_radius c) -> opt_magnitude (bc_leaf_radius c) ->
  (1 <= bc_leaf_capacity c)%nat -> tp_kind (bc_tree c) <> OtherKind ->
  exists d D centers,
    get_metric BA b_sqrt (Name name) [] = Ok (total_fn BA d) /\
    get_metric RA sqrt (Name name) [] = Ok (total_fn RA D) /\
    let net := ball_apply b_le b_lt b_gap b_zero d c X in
    stops net = None /\ covers (length X) (yields net) /\ StronglySorted lt centers /\
    Forall2 (fun i s => exists x, nth_error X i = Some x /\ In i s /\ ball_of m d D (value (bc_radius c)) X x s)
      centers (yields net) /\
    (forall k k' i s, (k' < k)%nat -> nth_error centers k = Some i -> nth_error (yields net) k' = Some s -> ~ In i s).
Proof. exact named_ball_cover. Qed.
Print Assumptions C52_ball_cover.

(** [KNNCover.apply] with a named distance covers every point when no point has
    [neighbors] others at computed distance 0. *)
Theorem C52_knn_cover : forall name m (c : knn_cover b64) (X : list (list b64)),
  In name ["euclidean"; "manhattan"; "chebyshev"]%string -> (Z.of_nat m <= 2 ^ 20)%Z ->
  Forall (moderate m) X -> magnitude (kc_leaf_radius c) -> (1 <= kc_neighbors c)%nat -> tp_kind (kc_tree c) <> OtherKind ->
  exists d, get_metric BA b_sqrt (Name name) [] = Ok (total_fn BA d) /\
  ((forall i x, nth_error X i = Some x -> forall l, NoDup l ->
     (forall j, In j l -> j <> i /\ exists y, nth_error X j = Some y /\ value (d x y) = 0) ->
     (length l < kc_neighbors c)%nat) ->
  exists centers,
    let net := knn_apply b_le b_lt b_gap b_zero d c X in
    stops net = None /\ covers (length X) (yields net) /\ StronglySorted lt centers /\
    Forall2 (fun i s => exists x, nth_error X i = Some x /\ In i s /\ NoDup s /\
        length s = Nat.min (kc_neighbors c) (length X) /\ forall j, In j s -> (j < length X)%nat)
      centers (yields net)).
Proof. exact named_knn_cover. Qed.
Print Assumptions C52_knn_cover.

(** Any other distance, on points of any kind: [BallCover] covers if computed
    distances are finite, symmetric and less than the radius from a point to
    itself. No triangle inequality is needed for this. *)
Theorem C52_any_distance : forall (T : Type) (d : T -> T -> b64) (c : ball_cover b64) (X : list T),
  magnitude (bc_radius c) -> opt_magnitude (bc_leaf_radius c) -> distances_ok d X ->
  (1 <= bc_leaf_capacity c)%nat -> tp_kind (bc_tree c) <> OtherKind ->
  (forall x, In x X -> value (d x x) < value (bc_radius c)) ->
  exists centers,
    let net := ball_apply b_le b_lt b_gap b_zero d c X in
    stops net = None /\ covers (length X) (yields net) /\ StronglySorted lt centers /\
    Forall2 (fun i s => exists x, nth_error X i = Some x /\ In i s /\ NoDup s /\
        (forall j, In j s -> exists y, nth_error X j = Some y /\ value (d x y) < value (bc_radius c)) /\
        (forall D err, triangle_on D X -> computes d D err X ->
           forall j y, nth_error X j = Some y -> D x y < value (bc_radius c) - 4 * err -> In j s))
      centers (yields net) /\
    (forall k k' i s, (k' < k)%nat -> nth_error centers k = Some i -> nth_error (yields net) k' = Some s -> ~ In i s).
Proof. intros T d. exact (ball_cover_double d). Qed.
Print Assumptions C52_any_distance.

(** A dataset of vectors of small integers is of the kind above. *)
Lemma int_small z : (Z.abs z <= 2 ^ 52)%Z -> small 500 (b_ofz z).
Proof.
  intro H. destruct (b_ofz_val z) as [F V]; [lia|]. split; [exact F|]. rewrite V, <- abs_IZR.
  apply Rle_trans with (bpow radix2 52); [|apply bpow_le; lia]. change (bpow radix2 52) with (IZR (2 ^ 52)). apply IZR_le, H.
Qed.
Definition ints (X : list (list Z)) : list (list b64) := map (map b_ofz) X.
Lemma ints_moderate m X : Forall (fun x => length x = m /\ Forall (fun z => Z.abs z <= 2 ^ 52)%Z x) X -> Forall (moderate m) (ints X).
Proof.
  intro H. unfold ints. rewrite Forall_map. eapply Forall_impl; [|exact H]. intros x [L F]. split; [rewrite map_length; exact L|].
  rewrite Forall_map. eapply Forall_impl; [|exact F]. exact int_small.
Qed.

Definition parabola : list (list b64) := ints [[0; 0]; [1; 1]; [2; 4]; [3; 9]; [4; 16]]%Z.
Example C52_hypotheses_met :
  Forall (moderate 2) parabola /\ finite (b_ofz 5) /\ 0 < value (b_ofz 5) /\
  ball_apply b_le b_lt b_gap b_zero (euclidean BA b_sqrt) (mkball (b_ofz 5) hier 1 None) parabola =
    mkgen [[0; 1; 2]; [3]; [4]]%nat None /\
  knn_apply b_le b_lt b_gap b_zero (euclidean BA b_sqrt) (mkknn 2 hier None (b_ofz 0)) parabola =
    mkgen [[1; 0]; [1; 2]; [2; 3]; [3; 4]]%nat None.
Proof.
  split; [apply ints_moderate; repeat (constructor; [split; [reflexivity|repeat (constructor; [reflexivity||lia|]); constructor]|]); constructor|].
  destruct (b_ofz_val 5 eq_refl) as [F V]. split; [exact F|]. split; [rewrite V; lra|].
  split; vm_compute; reflexivity.
Qed.

(** The same for sums taken in any order and grouping, with or without fused
    multiply-add, as [fastmath=True] permits: accuracy, ... *)
Theorem C52_any_order_accuracy : forall name m p,
  In name ["euclidean"; "manhattan"; "chebyshev"]%string -> (Z.of_nat m <= 2 ^ 20)%Z -> plan_for m p ->
  let d := fast_metric name p in
  exists D : list R -> list R -> R, get_metric RA sqrt (Name name) [] = Ok (total_fn RA D) /\
    (forall x, moderate m x -> value (d x x) = 0) /\
    forall x y, moderate m x -> moderate m y ->
      magnitude (d x y) /\ value (d x y) = value (d y x) /\
      Rabs (value (d x y) - D (reals x) (reals y)) <= rounding_error m (D (reals x) (reals y)).
Proof.
  intros name m p Hn Hm Hp. cbv zeta. destruct (fast_double name m p Hn Hm Hp) as [D [G [[W1 W2] [_ Ac]]]].
  exists D. split; [exact G|]. split; [exact W2|]. intros x y Hx Hy. destruct (W1 x y Hx Hy). auto.
Qed.
Print Assumptions C52_any_order_accuracy.

(** ... searches and covers. *)
Theorem C52_any_order_ball : forall name m p (c : ball_cover b64) (X : list (list b64)),
  In name ["euclidean"; "manhattan"; "chebyshev"]%string -> (Z.of_nat m <= 2 ^ 20)%Z -> plan_for m p ->
  Forall (moderate m) X -> finite (bc_radius c) -> 0 < value (bc_radius c) -> opt_magnitude (bc_leaf_radius c) ->
  (1 <= bc_leaf_capacity c)%nat -> tp_kind (bc_tree c) <> OtherKind ->
  let d := fast_metric name p in let net := ball_apply b_le b_lt b_gap b_zero d c X in
  exists D, get_metric RA sqrt (Name name) [] = Ok (total_fn RA D) /\
    (X <> [] -> exists search, ball_fit b_le b_lt b_gap b_zero d c X = Ok search /\
       forall q, moderate m q -> exists ids, search q = Ok ids /\ ball_of m d D (value (bc_radius c)) X q ids) /\
    stops net = None /\ covers (length X) (yields net) /\
    exists centers, StronglySorted lt centers /\
      Forall2 (fun i s => exists x, nth_error X i = Some x /\ In i s /\ ball_of m d D (value (bc_radius c)) X x s)
        centers (yields net) /\
      (forall k k' i s, (k' < k)%nat -> nth_error centers k = Some i -> nth_error (yields net) k' = Some s -> ~ In i s).
Proof.
  intros name m p c X Hn Hm Hp HX Fr Hr Hlr Hc Hk. cbv zeta. destruct (fast_double name m p Hn Hm Hp) as [D [G C]].
  exists D. split; [exact G|]. split.
  - intro Ne. apply (close_ball_search m _ D c X C HX Ne); auto. split; [exact Fr|]. apply Rlt_le, Hr.
  - destruct (close_ball_cover m _ D c X C HX Fr Hr Hlr Hc Hk) as [centers [S1 [S2 S3]]].
    split; [exact S1|]. split; [exact S2|]. exists centers. exact S3.
Qed.
Print Assumptions C52_any_order_ball.

(** The order matters to the last bits. *)
Example C52_any_order_hypotheses_met :
  let p := Join (Join (Item 0) (Item 1)) (Item 2) in let q := Join (Fused (Item 2) 1) (Join (Item 0) Nothing) in
  plan_for 3 p /\ plan_for 3 q /\
  let x := [b_make 1 53; b_ofz 1; b_ofz 1] in let o := [b_zero; b_zero; b_zero] in
  moderate 3 x /\ moderate 3 o /\
  b_lt (fast_metric "manhattan" p x o) (fast_metric "manhattan" q x o) = true /\
  b_lt (fast_metric "euclidean" p x o) (fast_metric "euclidean" q x o) = false.
Proof.
  cbv zeta. split; [apply Permutation.Permutation_refl|]. split.
  { unfold plan_for. simpl. apply (Permutation.perm_trans (l' := [1; 0; 2]%nat)).
    - apply Permutation.perm_skip, Permutation.perm_swap.
    - apply Permutation.perm_swap. }
  assert (Z1 : small 500 b_zero) by (apply (int_small 0); lia). assert (Z2 : small 500 (b_ofz 1)) by (apply int_small; lia).
  assert (Z3 : small 500 (b_make 1 53)).
  { destruct (b_make_val 1 53) as [F V]; [lia|lia|]. split; [exact F|]. rewrite V, Rmult_1_l.
    rewrite Rabs_right by (apply Rle_ge, bpow_ge_0). apply bpow_le. lia. }
  split; [split; [reflexivity|repeat (apply Forall_cons; [assumption|]); apply Forall_nil]|].
  split; [split; [reflexivity|repeat (apply Forall_cons; [assumption|]); apply Forall_nil]|]. split; vm_compute; reflexivity.
Qed.

(** Distances that overflow leave points uncovered: with infinite distances
    from the vantage point, two of these four points are in no ball. *)
Theorem C52_overflow_refuted : exists (X : list (list b64)) (c : ball_cover b64),
  Forall (fun x => length x = 1%nat /\ Forall finite x) X /\ finite (bc_radius c) /\ 0 < value (bc_radius c) /\
  (1 <= bc_leaf_capacity c)%nat /\ tp_kind (bc_tree c) <> OtherKind /\
  let net := ball_apply b_le b_lt b_gap b_zero (manhattan BA b_sqrt) c X in
  stops net = None /\ exists i, (i < length X)%nat /\ forall s, In s (yields net) -> ~ In i s.
Proof.
  exists [[b_make (-15) 1020]; [b_make 15 1020]; [b_make 14 1020]; [b_make 13 1020]], (mkball (b_ofz 1) flat 1 None).
  split; [repeat (constructor; [split; [reflexivity|constructor; [reflexivity|constructor]]|]); constructor|].
  destruct (b_ofz_val 1 eq_refl) as [F V]. split; [exact F|]. split; [cbn [bc_radius]; rewrite V; lra|].
  split; [simpl; lia|]. split; [discriminate|]. cbv zeta.
  assert (E : ball_apply b_le b_lt b_gap b_zero (manhattan BA b_sqrt) (mkball (b_ofz 1) flat 1 None)
    [[b_make (-15) 1020]; [b_make 15 1020]; [b_make 14 1020]; [b_make 13 1020]] = mkgen [[0]; [2]]%nat None) by (vm_compute; reflexivity).
  rewrite E. split; [reflexivity|]. exists 1%nat. split; [simpl; lia|]. simpl. intros s [<-|[<-|[]]]; simpl; intuition lia.
Qed.
Print Assumptions C52_overflow_refuted.

(** The margin is needed: a search can miss a point that is closer than the radius,
    even by the computed distance. *)
Theorem C52_exact_search_refuted : exists (X : list (list b64)) (c : ball_cover b64) (q : list b64) search ids i x,
  Forall (moderate 1) (q :: X) /\ magnitude (bc_radius c) /\
  (1 <= bc_leaf_capacity c)%nat /\ tp_kind (bc_tree c) <> OtherKind /\
  ball_fit b_le b_lt b_gap b_zero (manhattan BA b_sqrt) c X = Ok search /\ search q = Ok ids /\
  nth_error X i = Some x /\ b_lt (manhattan BA b_sqrt q x) (bc_radius c) = true /\ ~ In i ids.
Proof.
  set (X := [[b_ofz (-1)]; [b_make 1 (-54)]; [b_make 1 (-55)]; [b_make 3 (-54)]]).
  set (c := mkball (b_make 11 (-56)) hier 1 None). set (q := [b_make 3 (-54)]).
  assert (M : forall a e, (Z.abs a <= 2 ^ 52)%Z -> (-1000 <= e <= 0)%Z -> small 500 (b_make a e)).
  { intros a e Ha He. destruct (b_make_val a e) as [F V]; [lia|lia|]. split; [exact F|]. rewrite V, Rabs_mult, <- abs_IZR.
    rewrite (Rabs_right (bpow _ _)) by (apply Rle_ge, bpow_ge_0). apply Rle_trans with (bpow radix2 52 * bpow radix2 0).
    - apply Rmult_le_compat; [apply IZR_le; lia|apply bpow_ge_0| |apply bpow_le; lia].
      change (bpow radix2 52) with (IZR (2 ^ 52)). apply IZR_le, Ha.
    - rewrite <- bpow_plus. apply bpow_le. lia. }
  assert (MX : Forall (moderate 1) (q :: X)).
  { repeat (constructor; [split; [reflexivity|constructor; [apply M; lia|constructor]]|]). constructor. }
  assert (Mr : magnitude (b_make 11 (-56))).
  { destruct (b_make_val 11 (-56)) as [F V]; [lia|lia|]. split; [exact F|]. rewrite V.
    apply Rmult_le_pos; [lra|apply bpow_ge_0]. }
  destruct (ball_search_double (manhattan BA b_sqrt) c X Mr I) as [search [E S]].
  - apply (well_ok 1); [apply manhattan_well; lia|]. apply Forall_cons_iff in MX. apply MX.
  - discriminate.
  - simpl. lia.
  - discriminate.
  - exists X, c, q, search, [1; 3]%nat, 2%nat, [b_make 1 (-55)].
    split; [exact MX|]. split; [exact Mr|]. split; [simpl; lia|]. split; [discriminate|].
    split; [exact E|]. split.
    + assert (R : bind (ball_fit b_le b_lt b_gap b_zero (manhattan BA b_sqrt) c X) (fun s => s q) = Ok [1; 3]%nat) by (vm_compute; reflexivity).
      rewrite E in R. exact R.
    + split; [reflexivity|]. split; [vm_compute; reflexivity|]. simpl. intuition lia.
Qed.
Print Assumptions C52_exact_search_refuted.

(** ** C53: cubical covers in double precision *)

(** Both algorithms cover every point when [overlap_frac] exceeds the rounding error
    of the grid; for [overlap_frac] up to 1/2, each set is then the hypercube of a
    grid cell up to this error. The last part leaves out columns whose range is
    so close to the threshold [eps] that rounding decides if they count as constant. *)
Theorem C53_cubical_cover : forall (c : cubical BA) m (X : list (list b64)) lo hi ov E alg,
  let n := cu_n_intervals BA c in
  (1 <= m)%nat -> (1 <= n <= 2 ^ 50)%Z -> X <> [] -> Forall (moderate m) X ->
  column_bounds m (map reals X) lo hi ->
  cu_overlap_frac BA c = Some ov -> finite ov ->
  (forall j, (j < m)%nat -> grid_error n (lo j) (hi j) <= E) -> E < value ov < 1 ->
  opt_magnitude (cu_leaf_radius BA c) -> (1 <= cu_leaf_capacity BA c)%nat -> tp_kind (cu_tree BA c) <> OtherKind ->
  alg <> OtherAlgorithm ->
  let net := cubical_apply BA (b_make 1 (-52)) alg c X in
  stops net = None /\ covers (length X) (yields net) /\
  (forall s, In s (yields net) -> s <> [] /\ NoDup s /\ forall i, In i s -> (i < length X)%nat) /\
  (value ov <= 1 / 2 -> (forall j, (j < m)%nat -> hi j - lo j <= eps64 \/ 2 * eps64 <= hi j - lo j) ->
   forall s, In s (yields net) -> exists x k, In x X /\
     near_cell E m n (grid_pos n eps64 lo hi) (reals x) k /\
     cube_up_to E m (1 / (2 - 2 * value ov)) (grid_pos n eps64 lo hi) (map reals X) k s).
Proof.
  intros c m X lo hi ov E alg n H1 H2 H3 H4 H5 H6 H7 H8 H9 H10 H11 H12 H13.
  exact (cubical_double c m X lo hi ov E H1 H2 H3 H4 H5 H6 H7 H8 H9 H10 H11 H12 alg H13).
Qed.
Print Assumptions C53_cubical_cover.

Definition column : list (list b64) := ints [[0]; [1]; [3]; [4]; [6]; [9]]%Z.
Definition cells (n : Z) (ov : b64) : cubical BA := @mkcub BA n (Some ov) hier 1 None.
Example C53_hypotheses_met :
  Forall (moderate 1) column /\ column_bounds 1 (map reals column) (fun _ => 0) (fun _ => 9) /\
  (forall j, (j < 1)%nat -> grid_error 3 0 9 <= 192 * eps64) /\
  finite (b_make 1 (-2)) /\ 192 * eps64 < value (b_make 1 (-2)) < 1 /\ 2 * eps64 <= 9 - 0 /\
  cubical_apply BA (b_make 1 (-52)) Proximity (cells 3 (b_make 1 (-2))) column = mkgen [[0; 1; 2]; [3; 4; 2]; [4; 5]]%nat None /\
  cubical_apply BA (b_make 1 (-52)) Standard (cells 3 (b_make 1 (-2))) column = mkgen [[4; 5]; [3; 4; 2]; [0; 1; 2]]%nat None.
Proof.
  assert (E1 : eps64 <= / 1024) by (apply (bpow_le radix2 (-52) (-10)); lia).
  assert (E0 : 0 < eps64) by apply bpow_gt_0.
  destruct (b_make_val 1 (-2)) as [F V]; [lia|lia|]. change (bpow radix2 (-2)) with (/ 4) in V.
  split; [apply ints_moderate; repeat (constructor; [split; [reflexivity|repeat (constructor; [reflexivity||lia|]); constructor]|]); constructor|].
  split.
  { intros j Hj. assert (j = 0%nat) by lia. subst j.
    assert (Vs : forall z, (Z.abs z < 2 ^ 53)%Z -> coord (reals [b_ofz z]) 0 = IZR z).
    { intros z Hz. apply (b_ofz_val z Hz). }
    split; [exists (reals [b_ofz 0]); split; [left; reflexivity|apply Vs; lia]|].
    split; [exists (reals [b_ofz 9]); split; [simpl; tauto|apply Vs; lia]|].
    intros x Hx. apply in_map_iff in Hx as [y [<- Hy]]. apply in_map_iff in Hy as [z [<- Hz]]. simpl in Hz.
    repeat (destruct Hz as [<-|Hz]; [cbn [map]; rewrite Vs by lia; lra|]). contradiction. }
  split. { intros _ _. unfold grid_error, width. rewrite Rabs_R0. destruct (Rle_dec (9 - 0) eps64); [exfalso; lra|]. unfold Rdiv. lra. }
  split; [exact F|]. split; [rewrite V; split; [|lra]|split; [lra|split; vm_compute; reflexivity]].
  assert (eps64 <= / 1024 * / 1024). { apply Rle_trans with (bpow radix2 (-20)); [apply bpow_le; lia|]. apply Req_le. simpl. lra. } lra.
Qed.

(** The bound on [overlap_frac] is needed. Far from the origin, next to the range of
    the values: three doubles from [10 ^ 16] on, two intervals, the middle one is lost. *)
Theorem C53_far_from_origin_refuted : exists (X : list (list b64)) (c : cubical BA) ov,
  X <> [] /\ Forall (moderate 1) X /\ cu_overlap_frac BA c = Some ov /\ 0 < value ov <= 1 / 2 /\
  (1 <= cu_n_intervals BA c)%Z /\ (1 <= cu_leaf_capacity BA c)%nat /\ tp_kind (cu_tree BA c) <> OtherKind /\
  forall alg, alg <> OtherAlgorithm ->
  let net := cubical_apply BA (b_make 1 (-52)) alg c X in
  stops net = None /\ exists i, (i < length X)%nat /\ forall s, In s (yields net) -> ~ In i s.
Proof.
  exists [[b_make 5000000000000000 1]; [b_make 5000000000000001 1]; [b_make 5000000000000002 1]], (cells 2 (b_make 1 (-3))), (b_make 1 (-3)).
  split; [discriminate|]. split.
  { repeat (constructor; [split; [reflexivity|constructor; [|constructor]]|]); [| | |constructor].
    all: split; [reflexivity|].
    all: match goal with |- Rabs (value (b_make ?a 1)) <= _ => destruct (b_make_val a 1) as [_ V]; [lia|lia|]; rewrite V end.
    all: change (bpow radix2 1) with 2; rewrite Rabs_right by lra.
    all: apply Rle_trans with (bpow radix2 60); [change (bpow radix2 60) with (IZR (2 ^ 60)); lra|apply bpow_le; lia]. }
  split; [reflexivity|]. split.
  { destruct (b_make_val 1 (-3)) as [F V]; [lia|lia|]. rewrite V. change (bpow radix2 (-3)) with (/ 8). lra. }
  split; [simpl; lia|]. split; [simpl; lia|]. split; [discriminate|].
  intros alg Ha. cbv zeta. destruct alg; [| |congruence].
  - assert (E : cubical_apply BA (b_make 1 (-52)) Proximity (cells 2 (b_make 1 (-3)))
      [[b_make 5000000000000000 1]; [b_make 5000000000000001 1]; [b_make 5000000000000002 1]] = mkgen [[0]; [2]]%nat None) by (vm_compute; reflexivity).
    rewrite E. split; [reflexivity|]. exists 1%nat. split; [simpl; lia|]. simpl. intros s [<-|[<-|[]]]; simpl; intuition lia.
  - assert (E : cubical_apply BA (b_make 1 (-52)) Standard (cells 2 (b_make 1 (-3)))
      [[b_make 5000000000000000 1]; [b_make 5000000000000001 1]; [b_make 5000000000000002 1]] = mkgen [[2]; [0]]%nat None) by (vm_compute; reflexivity).
    rewrite E. split; [reflexivity|]. exists 1%nat. split; [simpl; lia|]. simpl. intros s [<-|[<-|[]]]; simpl; intuition lia.
Qed.
Print Assumptions C53_far_from_origin_refuted.

(** A positive [overlap_frac] below the precision of the radius: points on the border
    of the grid are lost. *)
Theorem C53_tiny_overlap_refuted : exists (X : list (list b64)) (c : cubical BA) ov,
  X <> [] /\ Forall (moderate 1) X /\ cu_overlap_frac BA c = Some ov /\ 0 < value ov <= 1 / 2 /\
  (1 <= cu_n_intervals BA c)%Z /\ (1 <= cu_leaf_capacity BA c)%nat /\ tp_kind (cu_tree BA c) <> OtherKind /\
  forall alg, alg <> OtherAlgorithm ->
  let net := cubical_apply BA (b_make 1 (-52)) alg c X in
  stops net = None /\ exists i, (i < length X)%nat /\ forall s, In s (yields net) -> ~ In i s.
Proof.
  exists (ints [[0]; [1]; [2]; [4]]%Z), (cells 2 (b_make 1 (-56))), (b_make 1 (-56)).
  split; [discriminate|]. split.
  { apply ints_moderate; repeat (constructor; [split; [reflexivity|repeat (constructor; [reflexivity||lia|]); constructor]|]); constructor. }
  split; [reflexivity|]. split.
  { destruct (b_make_val 1 (-56)) as [F V]; [lia|lia|]. rewrite V. rewrite Rmult_1_l. split; [apply bpow_gt_0|].
    apply Rle_trans with (bpow radix2 (-1)); [apply bpow_le; lia|]. change (bpow radix2 (-1)) with (/ 2). lra. }
  split; [simpl; lia|]. split; [simpl; lia|]. split; [discriminate|].
  intros alg Ha. cbv zeta. destruct alg; [| |congruence].
  - assert (E : cubical_apply BA (b_make 1 (-52)) Proximity (cells 2 (b_make 1 (-56))) (ints [[0]; [1]; [2]; [4]]%Z) = mkgen [[1]]%nat None) by (vm_compute; reflexivity).
    rewrite E. split; [reflexivity|]. exists 0%nat. split; [simpl; lia|]. simpl. intros s [<-|[]]; simpl; intuition lia.
  - assert (E : cubical_apply BA (b_make 1 (-52)) Standard (cells 2 (b_make 1 (-56))) (ints [[0]; [1]; [2]; [4]]%Z) = mkgen [[1]]%nat None) by (vm_compute; reflexivity).
    rewrite E. split; [reflexivity|]. exists 0%nat. split; [simpl; lia|]. simpl. intros s [<-|[]]; simpl; intuition lia.
Qed.
Print Assumptions C53_tiny_overlap_refuted.
