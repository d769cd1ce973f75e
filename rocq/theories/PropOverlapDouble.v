(** C65 again: how often the sets of a cubical cover computed in double precision overlap. *)
From Coq Require Import String Reals Lra Lia Sorted.
From Flocq Require Import Core BinarySingleNaN.
From Verif Require Import Base BaseFacts ModelCore SpecCore SpecNet ModelVPTree ModelArith ModelCover SpecCover SpecMetric ModelMetrics
  SpecCubical SpecOverlap OverlapFacts SpecPacking PackingFacts CoreProp ModelFloat FloatFacts SpecDouble FloatGrid FloatCubicalFit CubicalDouble.
From Verif Require PropFloat.
Import PropFloat.
Open Scope R_scope.

(** ** C65: in double precision, with an [overlap_frac] above the rounding error [E] of the grid and
    at most 1/2, both algorithms yield, up to [E], hypercubes of different cells. A point is in at
    most [K ^ m] of them, and a node with one cluster per set has fewer than
    [(2 K - 1) ^ m] neighbours, for [K] at least the side of the hypercubes and two errors. *)
Theorem C65_double : forall (c : cubical BA) m (Y : list (list b64)) lo hi ov E alg,
  let n := cu_n_intervals BA c in
  (1 <= m)%nat -> (1 <= n <= 2 ^ 50)%Z -> Y <> [] -> Forall (moderate m) Y ->
  column_bounds m (map reals Y) lo hi ->
  cu_overlap_frac BA c = Some ov -> finite ov ->
  (forall j, (j < m)%nat -> grid_error n (lo j) (hi j) <= E) -> E < value ov <= 1 / 2 ->
  (forall j, (j < m)%nat -> hi j - lo j <= eps64 \/ 2 * eps64 <= hi j - lo j) ->
  opt_magnitude (cu_leaf_radius BA c) -> (1 <= cu_leaf_capacity BA c)%nat -> tp_kind (cu_tree BA c) <> OtherKind ->
  alg <> OtherAlgorithm ->
  let p := grid_pos n eps64 lo hi in let cover := cubical_apply BA (b_make 1 (-52)) alg c Y in
  (exists cells, NoDup cells /\
    Forall2 (fun k s => (exists x, In x Y /\ near_cell E m n p (reals x) k) /\ cube_up_to E m (1 / (2 - 2 * value ov)) p (map reals Y) k s)
      cells (yields cover)) /\
  forall K, 1 / (1 - value ov) + 2 * E <= INR K ->
    let B := (K ^ m)%nat in
    (forall i js, sets_with (yields cover) i js -> (length js <= B)%nat) /\
    (forall (T : Type) (X : list T) clust out, mapper_labels X cover clust = Ok out -> Forall (fun lbls => (length lbls <= B)%nat) out) /\
    (forall (T : Type) (X : list T) clust g, mapper_graph X cover clust = Ok g ->
      (length (g_nodes g) <= length X * B)%nat /\ (ends g <= length X * (B * (B - 1)))%nat) /\
    forall (T : Type) (X : list T) g, mapper_graph X cover (fun _ => trivial_clustering) = Ok g ->
      forall a nb, In (a, nb) (g_adj g) -> (length nb < (2 * K - 1) ^ m)%nat.
Proof.
  intros c m Y lo hi ov E alg n H1 H2 H3 H4 H5 H6 H7 H8 H9 Hb H10 H11 H12 H13 p cover.
  destruct (double_cells c m Y lo hi ov E H1 H2 H3 H4 H5 H6 H7 H8 H9 H10 H11 H12 Hb alg H13) as [cells [N F]].
  assert (PE : 0 <= E).
  { apply Rle_trans with (grid_error n (lo 0%nat) (hi 0%nat)); [|apply H8; lia]. unfold grid_error.
    assert (Pe : 0 < eps64) by apply bpow_gt_0. assert (Pn : 1 <= IZR n) by (apply IZR_le; exact (proj1 H2)).
    apply Rmult_le_pos; [apply Rmult_le_pos; lra|]. apply Rplus_le_le_0_compat; [|lra].
    apply Rmult_le_pos; [apply Rabs_pos|]. left. apply Rinv_0_lt_compat. unfold width.
    destruct (Rle_dec (hi 0%nat - lo 0%nat) eps64); lra. }
  split.
  { exists cells. split; [exact N|]. fold n p in F.
    change (cubical_apply BA b_eps alg c Y) with cover in F. clear - F. revert F. generalize (yields cover). intros ys F.
    induction F as [|k s l l' [x [A [B C]]] F IH]; constructor; [|exact IH]. split; [exists x; auto|exact C]. }
  intros K HK B. set (r := 1 / (2 - 2 * value ov)) in *.
  assert (Er : 2 * r = 1 / (1 - value ov)) by (unfold r; field; lra).
  assert (Pr : 0 < r) by (apply Rdiv_lt_0_compat; lra).
  assert (HK2 : 2 * (r + E) <= INR K) by lra. assert (Pr2 : 0 < r + E) by lra. fold n p r in F.
  assert (Q : forall i js, sets_with (yields cover) i js -> (length js <= B)%nat).
  { exact (upto_count m K n r E p _ Y cells _ HK2 N F). }
  pose proof (upto_nodup m n r E p _ Y cells _ F) as Nd. split; [exact Q|]. split; [|split].
  - intros T X clust out Eo. apply Forall_forall. intros lbls I. apply In_nth_error in I. destruct I as [i Ei].
    exact (labels_bounded X clust _ _ Nd Q _ out i lbls eq_refl Eo Ei).
  - intros T X clust g Eg. exact (size_bounded X clust _ _ Nd Q _ g eq_refl Eg).
  - intros T X g Eg. apply (upto_degree m K n r E p _ Y cells _ HK2 Pr2 N F X (fun _ => trivial_clustering) _ g eq_refl Eg).
    intros k l l' [i [_ [ids [lbls [j [[_ [xs [_ L1]]] [_ L2]]]]]]] [i' [_ [ids' [lbls' [j' [[_ [xs' [_ L1']]] [_ L2']]]]]]].
    assert (Z0 : forall (zs : list T) ls q v, trivial_clustering zs = Ok ls -> nth_error ls q = Some v -> v = 0%Z).
    { intros zs ls q v R1 R2. injection R1 as <-. apply nth_error_In in R2. apply in_map_iff in R2. destruct R2 as [_ [<- _]]. reflexivity. }
    rewrite (Z0 xs lbls j l L1 L2), (Z0 xs' lbls' j' l' L1' L2'). reflexivity.
Qed.
Print Assumptions C65_double.

(** ** C65: so with [overlap_frac] at most 1/2 a point is in at most [3 ^ m] sets, and in at most
    [2 ^ m] if [overlap_frac] stays below 1/2 by the rounding error. *)
Theorem C65_double_half : forall (c : cubical BA) m (Y : list (list b64)) lo hi ov E alg,
  let n := cu_n_intervals BA c in
  (1 <= m)%nat -> (1 <= n <= 2 ^ 50)%Z -> Y <> [] -> Forall (moderate m) Y ->
  column_bounds m (map reals Y) lo hi ->
  cu_overlap_frac BA c = Some ov -> finite ov ->
  (forall j, (j < m)%nat -> grid_error n (lo j) (hi j) <= E) -> E < value ov <= 1 / 2 ->
  (forall j, (j < m)%nat -> hi j - lo j <= eps64 \/ 2 * eps64 <= hi j - lo j) ->
  opt_magnitude (cu_leaf_radius BA c) -> (1 <= cu_leaf_capacity BA c)%nat -> tp_kind (cu_tree BA c) <> OtherKind ->
  alg <> OtherAlgorithm ->
  forall i js, sets_with (yields (cubical_apply BA (b_make 1 (-52)) alg c Y)) i js ->
    (length js <= 3 ^ m)%nat /\ (value ov <= 1 / 2 - E -> (length js <= 2 ^ m)%nat).
Proof.
  intros c m Y lo hi ov E alg n H1 H2 H3 H4 H5 H6 H7 H8 H9 Hb H10 H11 H12 H13 i js Hs.
  destruct (C65_double c m Y lo hi ov E alg H1 H2 H3 H4 H5 H6 H7 H8 H9 Hb H10 H11 H12 H13) as [_ Q].
  assert (U : forall v, 0 < v -> v < 1 -> 1 / (1 - v) = 1 + v / (1 - v)) by (intros v _ Hv; field; lra).
  split.
  - apply (proj1 (Q 3%nat ltac:(
      assert (1 / (1 - value ov) <= 2) by (apply (Rmult_le_reg_r (1 - value ov)); [lra|]; unfold Rdiv; rewrite Rmult_assoc, Rinv_l by lra; lra);
      simpl INR; lra)) i js Hs).
  - intro Ho. apply (proj1 (Q 2%nat ltac:(
      assert (P : 1 / (1 - value ov) <= 2 - 2 * E) by (apply (Rmult_le_reg_r (1 - value ov)); [lra|]; unfold Rdiv; rewrite Rmult_assoc, Rinv_l by lra; nra);
      simpl INR; lra)) i js Hs).
Qed.
Print Assumptions C65_double_half.

(** Non-vacuity: the column of [C53_hypotheses_met], where two points are in two sets each. *)
Example C65_double_met :
  sets_with (yields (cubical_apply BA (b_make 1 (-52)) Proximity (cells 3 (b_make 1 (-2))) column)) 2 [0; 1]%nat /\
  192 * eps64 < value (b_make 1 (-2)) <= 1 / 2 - 192 * eps64.
Proof.
  split.
  - destruct C53_hypotheses_met as [_ [_ [_ [_ [_ [_ [E _]]]]]]]. rewrite E. split; [repeat constructor; simpl; intuition discriminate|].
    intros j [<-|[<-|[]]]; eexists; (split; [reflexivity|simpl; auto]).
  - destruct (b_make_val 1 (-2)) as [F V]; [lia|lia|]. change (bpow radix2 (-2)) with (/ 4) in V. rewrite V.
    assert (eps64 <= / 1024 * / 1024). { apply Rle_trans with (bpow radix2 (-20)); [apply bpow_le; lia|]. apply Req_le. simpl. lra. } lra.
Qed.

(** ** C65: with [overlap_frac] exactly 1/2, where real numbers give at most two, a point of a column can be
    in three sets: the doubles next to 0.2, 0.3, ..., 1.2 and five intervals. *)
Definition tenths : list (list b64) :=
  map (fun q => [b_make (fst q) (snd q)])
    [(3602879701896397, -54); (5404319552844595, -54); (3602879701896397, -53); (1, -1); (5404319552844595, -53); (3152519739159347, -52);
     (3602879701896397, -52); (8106479329266893, -53); (1, 0); (2476979795053773, -51); (5404319552844595, -52)]%Z.
Theorem C65_double_refuted : exists (c : cubical BA) (Y : list (list b64)) i js,
  Forall (moderate 1) Y /\ cu_n_intervals BA c = 5%Z /\ cu_overlap_frac BA c = Some (b_make 1 (-1)) /\ value (b_make 1 (-1)) = 1 / 2 /\
  sets_with (yields (cubical_apply BA (b_make 1 (-52)) Standard c Y)) i js /\ (2 ^ 1 < length js)%nat.
Proof.
  exists (cells 5 (b_make 1 (-1))), tenths, 3%nat, [2; 3; 4]%nat.
  assert (M : forall a e, (Z.abs a < 2 ^ 53)%Z -> (-1000 <= e <= 0)%Z -> small 500 (b_make a e)).
  { intros a e Ha He. destruct (b_make_val a e) as [F V]; [lia|lia|]. split; [exact F|]. rewrite V, Rabs_mult, <- abs_IZR.
    rewrite (Rabs_right (bpow _ _)) by (apply Rle_ge, bpow_ge_0). apply Rle_trans with (bpow radix2 53 * bpow radix2 0).
    - apply Rmult_le_compat; [apply IZR_le; lia|apply bpow_ge_0| |apply bpow_le; lia].
      change (bpow radix2 53) with (IZR (2 ^ 53)). apply IZR_le. lia.
    - rewrite <- bpow_plus. apply bpow_le. lia. }
  split.
  { unfold tenths. cbn [map fst snd]. repeat (constructor; [split; [reflexivity|constructor; [apply M; lia|constructor]]|]). constructor. }
  split; [reflexivity|]. split; [reflexivity|].
  destruct (b_make_val 1 (-1)) as [_ V]; [lia|lia|]. split; [rewrite V; simpl; lra|]. split; [|simpl; lia].
  assert (R : yields (cubical_apply BA (b_make 1 (-52)) Standard (cells 5 (b_make 1 (-1))) tenths) = [[8; 9; 10]; [6; 7; 8]; [3; 4; 5; 6]; [2; 3; 4; 5]; [0; 1; 2; 3]]%nat) by (vm_compute; reflexivity).
  rewrite R. split; [repeat constructor; simpl; intuition discriminate|].
  intros j [<-|[<-|[<-|[]]]]; eexists; (split; [reflexivity|simpl; auto]).
Qed.
Print Assumptions C65_double_refuted.
