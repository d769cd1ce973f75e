(** C68 again: how often the balls of a cover computed in double precision overlap. *)
From Coq Require Import String Reals Lra Lia Sorted.
From Flocq Require Import Core BinarySingleNaN.
From Verif Require Import Base BaseFacts ModelCore SpecCore SpecNet ModelVPTree ModelArith ModelCover SpecMetric SpecMetrics ModelMetrics
  SpecCubical SpecOverlap OverlapFacts SpecPacking PackingFacts CoreProp ModelFloat FloatFacts SpecDouble FloatCover FloatNamed FloatGrid FloatCubicalFit PackingDouble.
From Verif Require PropFloat.
Import PropFloat.
Open Scope R_scope.

(** ** C68: with distances computed in double precision, a point is in at most
    [(2 K + 1) ^ m] balls, a node with one cluster per ball has fewer than [(4 K + 1) ^ m]
    neighbours, as long as the radius is some [20 K + 4] times the rounding error of
    the largest distance [B]. Rounding can hide a point near the border of a ball, so
    that its ball is opened too: hence [+ 1] next to the bound for real numbers. *)
Theorem C68_double : forall name m K (c : ball_cover b64) (Y : list (list b64)),
  In (name, K) [("chebyshev"%string, 1%nat); ("euclidean"%string, S (Nat.sqrt (m - 1))); ("manhattan"%string, m)] -> (1 <= m)%nat ->
  (Z.of_nat m <= 2 ^ 20)%Z -> Forall (moderate m) Y -> finite (bc_radius c) -> 0 < value (bc_radius c) -> opt_magnitude (bc_leaf_radius c) ->
  (1 <= bc_leaf_capacity c)%nat -> tp_kind (bc_tree c) <> OtherKind ->
  exists d D, get_metric BA b_sqrt (Name name) [] = Ok (total_fn BA d) /\ get_metric RA sqrt (Name name) [] = Ok (total_fn RA D) /\
    let cover := ball_apply b_le b_lt b_gap b_zero d c Y in
    forall B, 0 <= B -> (forall a b, In a Y -> In b Y -> D (reals a) (reals b) <= B) ->
    ((10 * INR K + 4) * rounding_error m B <= value (bc_radius c) ->
      let b := ((2 * K + 1) ^ m)%nat in
      (forall i js, sets_with (yields cover) i js -> (length js <= b)%nat) /\
      (forall (T : Type) (X : list T) clust out, mapper_labels X cover clust = Ok out -> Forall (fun lbls => (length lbls <= b)%nat) out) /\
      forall (T : Type) (X : list T) clust g, mapper_graph X cover clust = Ok g ->
        (length (g_nodes g) <= length X * b)%nat /\ (ends g <= length X * (b * (b - 1)))%nat) /\
    ((20 * INR K + 4) * rounding_error m B <= value (bc_radius c) ->
      forall (T : Type) (X : list T) g, mapper_graph X cover (fun _ => trivial_clustering) = Ok g ->
      forall a nb, In (a, nb) (g_adj g) -> (length nb < (4 * K + 1) ^ m)%nat).
Proof.
  intros name m K c Y Hn Hm Hm2 HY Fr Hr Hl Hc Hk.
  assert (Hn3 : In name three) by (destruct Hn as [E|[E|[E|[]]]]; injection E as <- _; unfold three; simpl; auto).
  destruct (named_double name m Hn3 Hm2) as [d [D [G1 [G2 C]]]]. pose proof C as [_ [HM _]].
  destruct (named_comparable name m K D Hn Hm G2) as [K1 HC].
  destruct (close_ball_cover m d D c Y C HY Fr Hr Hl Hc Hk) as [cs [_ [_ [Ss [F Late]]]]].
  exists d, D. split; [exact G1|]. split; [exact G2|]. cbv zeta. intros B PB HB.
  set (cover := ball_apply b_le b_lt b_gap b_zero d c Y) in *. set (r := value (bc_radius c)) in *.
  pose proof (double_rows m Y HY) as HR. pose proof (double_balls m d D r B Y cs _ F HB) as HF.
  pose proof (double_apart m d D r B Y cs _ HM HY F Late HB) as Sep. pose proof (sorted_nodup _ Ss) as Nc.
  set (e := rounding_error m B) in *. assert (PK : 1 <= INR K) by (apply (le_INR 1), K1).
  assert (Pk : forall q, q = 10 \/ q = 20 -> (q * INR K + 4) * e <= r -> 0 < r - 4 * e /\ (0 <= e -> 2 * q / 10 * (r + e) * INR K <= (2 * q / 10 * INR K + 1) * (r - 4 * e))).
  { intros q Hq H. split.
    - destruct (Rle_lt_dec 0 e) as [P|P]; [|lra]. assert (0 <= INR K * e) by (apply Rmult_le_pos; lra). destruct (Rle_lt_or_eq_dec 0 e P) as [P'|<-]; [|lra].
      assert (0 < INR K * e) by (apply Rmult_lt_0_compat; lra). destruct Hq as [->| ->]; lra.
    - intro P. destruct Hq as [->| ->]; lra. }
  assert (Pe : 0 <= e).
  { unfold e, rounding_error.
    apply Rplus_le_le_0_compat; [apply Rmult_le_pos; [apply Rmult_le_pos; [|apply bpow_ge_0]|exact PB]|apply Rmult_le_pos; [|apply bpow_ge_0]].
    - pose proof (pos_INR m). lra.
    - apply pos_INR. }
  assert (Hw : 0 < r + e) by lra. split.
  - intro H. destruct (Pk 10 (or_introl eq_refl) H) as [P1 P2]. specialize (P2 Pe).
    assert (HN : 2 * (r + e) * INR K <= INR (2 * K + 1) * (r - 4 * e)) by (rewrite plus_INR, mult_INR; simpl INR; lra).
    assert (Q : forall i js, sets_with (yields cover) i js -> (length js <= (2 * K + 1) ^ m)%nat).
    { intros i js S. exact (slack_count m K D _ _ _ cs _ HC P1 Hw K1 HR Nc HF Sep _ i js HN S). }
    pose proof (slack_nodup D _ _ cs _ HF) as Nd. split; [exact Q|]. split.
    + intros T X clust out E. apply Forall_forall. intros lbls I. apply In_nth_error in I. destruct I as [i Ei].
      exact (labels_bounded X clust _ _ Nd Q _ out i lbls eq_refl E Ei).
    + intros T X clust g E. exact (size_bounded X clust _ _ Nd Q _ g eq_refl E).
  - intros H T X g E. destruct (Pk 20 (or_intror eq_refl) H) as [P1 P2]. specialize (P2 Pe).
    assert (HN : 4 * (r + e) * INR K <= INR (4 * K + 1) * (r - 4 * e)) by (rewrite plus_INR, mult_INR; simpl INR; lra).
    apply (slack_degree m K D _ _ _ cs _ HC P1 Hw K1 HR Nc HF Sep _ X (fun _ => trivial_clustering) _ g HN eq_refl E).
    intros k l l' [i [_ [ids [lbls [j [[_ [xs [_ L1]]] [_ L2]]]]]]] [i' [_ [ids' [lbls' [j' [[_ [xs' [_ L1']]] [_ L2']]]]]]].
    assert (Z0 : forall (zs : list T) ls q v, trivial_clustering zs = Ok ls -> nth_error ls q = Some v -> v = 0%Z).
    { intros zs ls q v R1 R2. injection R1 as <-. apply nth_error_In in R2. apply in_map_iff in R2. destruct R2 as [_ [<- _]]. reflexivity. }
    rewrite (Z0 xs lbls j l L1 L2), (Z0 xs' lbls' j' l' L1' L2'). reflexivity.
Qed.
Print Assumptions C68_double.

(** Non-vacuity: the last of three points on a line is in two balls; the rounding error is far below the radius. *)
Definition line3 : list (list b64) := ints [[-3]; [3]; [0]]%Z.
Example C68_double_met :
  Forall (moderate 1) line3 /\ finite (b_ofz 5) /\ 0 < value (b_ofz 5) /\
  (forall a b, In a line3 -> In b line3 -> chebyshev_norm RA sqrt (reals a) (reals b) <= 6) /\
  (20 * INR 1 + 4) * rounding_error 1 6 <= value (b_ofz 5) /\
  ball_apply b_le b_lt b_gap b_zero (chebyshev_norm BA b_sqrt) (mkball (b_ofz 5) hier 1 None) line3 = mkgen [[0; 2]; [2; 1]]%nat None.
Proof.
  split; [apply ints_moderate; repeat (constructor; [split; [reflexivity|repeat (constructor; [reflexivity||lia|]); constructor]|]); constructor|].
  destruct (b_ofz_val 5 eq_refl) as [F V]. split; [exact F|]. split; [rewrite V; lra|]. split.
  { intros a b Ia Ib.
    assert (Q : forall x, In x line3 -> exists v, reals x = [v] /\ -3 <= v <= 3).
    { intros x [<-|[<-|[<-|[]]]]; (eexists; split; [reflexivity|]);
        [rewrite (proj2 (b_ofz_val (-3) eq_refl))|rewrite (proj2 (b_ofz_val 3 eq_refl))|rewrite (proj2 (b_ofz_val 0 eq_refl))]; lra. }
    destruct (Q a Ia) as [u [-> Hu]], (Q b Ib) as [v [-> Hv]]. destruct (MetricProp.chebyshev_doc [u] [v] eq_refl) as [_ [[E _]|[j [Hj E]]]]; [discriminate|].
    rewrite <- E. destruct j as [|j]; [|simpl in Hj; lia]. unfold coord. simpl. apply Rabs_le. lra. }
  split.
  { rewrite V. unfold rounding_error.
    assert (B1 : bpow radix2 (-52) <= / 1024) by (apply Rle_trans with (bpow radix2 (-10)); [apply bpow_le; lia|simpl; lra]).
    assert (B2 : bpow radix2 (-536) <= / 1024) by (apply Rle_trans with (bpow radix2 (-10)); [apply bpow_le; lia|simpl; lra]).
    pose proof (bpow_ge_0 radix2 (-52)). pose proof (bpow_ge_0 radix2 (-536)). simpl INR. lra. }
  vm_compute. reflexivity.
Qed.

(** ** C68: the bound for real numbers is false in double precision: on a line, where
    no point is in more than two balls, one is in three. The first point, [-1], is so far from
    the others that their distances to it differ by less than rounding. *)
Theorem C68_double_refuted : exists (c : ball_cover b64) (Y : list (list b64)) i js,
  Forall (moderate 1) Y /\ magnitude (bc_radius c) /\ 0 < value (bc_radius c) /\ (1 <= bc_leaf_capacity c)%nat /\ tp_kind (bc_tree c) <> OtherKind /\
  get_metric BA b_sqrt (Name "manhattan") [] = Ok (total_fn BA (manhattan BA b_sqrt)) /\
  sets_with (yields (ball_apply b_le b_lt b_gap b_zero (manhattan BA b_sqrt) c Y)) i js /\ ((2 * 1) ^ 1 < length js)%nat.
Proof.
  set (Y := [b_ofz (-1)] :: map (fun k => [b_make k (-57)]) [4; 46; 25; 24; 20]%Z).
  exists (mkball (b_make 22 (-57)) hier 1 None), Y, 3%nat, [1; 2; 3]%nat.
  assert (M : forall a e, (Z.abs a <= 2 ^ 52)%Z -> (-1000 <= e <= 0)%Z -> small 500 (b_make a e)).
  { intros a e Ha He. destruct (b_make_val a e) as [F V]; [lia|lia|]. split; [exact F|]. rewrite V, Rabs_mult, <- abs_IZR.
    rewrite (Rabs_right (bpow _ _)) by (apply Rle_ge, bpow_ge_0). apply Rle_trans with (bpow radix2 52 * bpow radix2 0).
    - apply Rmult_le_compat; [apply IZR_le; lia|apply bpow_ge_0| |apply bpow_le; lia].
      change (bpow radix2 52) with (IZR (2 ^ 52)). apply IZR_le, Ha.
    - rewrite <- bpow_plus. apply bpow_le. lia. }
  destruct (b_make_val 22 (-57)) as [F V]; [lia|lia|]. pose proof (bpow_gt_0 radix2 (-57)) as P.
  split.
  { constructor; [split; [reflexivity|constructor; [apply int_small; lia|constructor]]|].
    cbn [map]. repeat (constructor; [split; [reflexivity|constructor; [apply M; lia|constructor]]|]). constructor. }
  split; [split; [exact F|apply Rle_trans with (22 * bpow radix2 (-57)); [lra|right; symmetry; exact V]]|].
  split; [apply Rlt_le_trans with (22 * bpow radix2 (-57)); [lra|right; symmetry; exact V]|]. split; [simpl; lia|]. split; [discriminate|].
  split; [reflexivity|]. split; [|simpl; lia].
  assert (R : yields (ball_apply b_le b_lt b_gap b_zero (manhattan BA b_sqrt) (mkball (b_make 22 (-57)) hier 1 None) Y) = [[0]; [1; 3]; [3; 2]; [1; 3; 4; 5]]%nat) by (vm_compute; reflexivity).
  rewrite R. split; [repeat constructor; simpl; intuition discriminate|].
  intros j [<-|[<-|[<-|[]]]]; eexists; (split; [reflexivity|simpl; auto]).
Qed.
Print Assumptions C68_double_refuted.
