(** C68: how often the balls of a cover overlap, and the size of the graph; C07 again. *)
From Coq Require Import String Reals Lra Lia Sorted.
From Verif Require Import Base BaseFacts ModelArith ModelCore SpecCore SpecNet ModelVPTree SpecMetric SpecMetrics ModelMetrics MetricProp
  ModelCover SpecCover CoverProp CoreProp SpecCubical SpecOverlap OverlapFacts SpecPacking PackingFacts.
From Verif Require PropCover PropOverlap.
Import PropCover PropOverlap.
Open Scope R_scope.

(** ** C07: [proximity_net] passes over a point only if it is in an earlier set, or if
    nothing is found around it. *)
Theorem C07_net_first_come : forall (S : Type) (fit : list S -> res (S -> res (list nat))) (X : list S) search,
  fit X = Ok search -> stops (proximity_net fit X) = None ->
  exists centers, first_come X search centers (yields (proximity_net fit X)).
Proof. intros S fit X search. exact (net_first_come search fit X). Qed.
Print Assumptions C07_net_first_come.
(** ** C07: which determines the sets. *)
Theorem C07_net_unique : forall (S : Type) (X : list S) search centers sets centers' sets',
  first_come X search centers sets -> first_come X search centers' sets' -> centers = centers' /\ sets = sets'.
Proof. intros S X search. exact (first_come_unique search X). Qed.
Print Assumptions C07_net_unique.

(** ** C68: which distances are meant. *)
Theorem C68_chebyshev : forall m, comparable m 1 (chebyshev_norm RA sqrt).
Proof. intro m. apply chebyshev_comparable. intros x y Lx Ly. apply chebyshev_doc. congruence. Qed.
Print Assumptions C68_chebyshev.
Theorem C68_euclidean : forall m K, (m <= K * K)%nat -> (1 <= K)%nat -> comparable m K (euclidean RA sqrt).
Proof. intros m K H1 H2. apply euclidean_comparable; auto. intros x y _ _. apply euclidean_doc. Qed.
Print Assumptions C68_euclidean.
Theorem C68_manhattan : forall m K, (m <= K)%nat -> (1 <= K)%nat -> comparable m K (manhattan RA sqrt).
Proof. intros m K H1 H2. apply manhattan_comparable; auto. intros x y _ _. apply manhattan_doc. Qed.
Print Assumptions C68_manhattan.
Theorem C68_minkowski : forall p m K d, 1 <= p -> (m <= K)%nat -> (1 <= K)%nat ->
  (forall x y, minkowski RA sqrt (Ord (A:=RA) p) x y = Ok (d x y)) -> comparable m K d.
Proof.
  intros p m K d Hp H1 H2 H. apply (minkowski_comparable p); auto. intros x y _ _.
  destruct (minkowski_metric p m Hp) as [d' [_ Q]]. destruct (Q x y) as [Q1 Q2]. assert (E : d x y = d' x y) by (rewrite H in Q1; congruence).
  rewrite E. exact Q2.
Qed.
Print Assumptions C68_minkowski.

(** ** C68: a point is in at most [(2 K) ^ m] of the balls, whatever their radius and the number of points. *)
Theorem C68_overlaps : forall m K d (c : ball_cover R) Y,
  @pseudo_metric_on (list R) (dim m) d -> comparable m K d -> (1 <= K)%nat -> Forall (dim m) Y -> 0 < bc_radius c ->
  (1 <= bc_leaf_capacity c)%nat -> tp_kind (bc_tree c) <> OtherKind ->
  forall i js, sets_with (yields (ball_apply Rleb Rltb Rgap 0 d c Y)) i js -> (length js <= (2 * K) ^ m)%nat.
Proof.
  intros m K d c Y Hd HC HK HY Hr Hc Hk. destruct (ball_apply_real (dim m) d c Y Hd HY Hr Hc Hk) as [cs [_ [_ [S [F Sep]]]]].
  exact (balls_count m K d (bc_radius c) Y cs _ HC Hr HK HY S F Sep).
Qed.
Print Assumptions C68_overlaps.

(** ** C68: so a point of the Mapper run has at most that many labels, whatever the clustering. *)
Theorem C68_labels : forall m K d (c : ball_cover R) Y,
  @pseudo_metric_on (list R) (dim m) d -> comparable m K d -> (1 <= K)%nat -> Forall (dim m) Y -> 0 < bc_radius c ->
  (1 <= bc_leaf_capacity c)%nat -> tp_kind (bc_tree c) <> OtherKind ->
  forall (T : Type) (X : list T) clust out, mapper_labels X (ball_apply Rleb Rltb Rgap 0 d c Y) clust = Ok out ->
  Forall (fun lbls => (length lbls <= (2 * K) ^ m)%nat) out.
Proof.
  intros m K d c Y Hd HC HK HY Hr Hc Hk T X clust out E. pose proof (C68_overlaps m K d c Y Hd HC HK HY Hr Hc Hk) as B.
  destruct (ball_apply_real (dim m) d c Y Hd HY Hr Hc Hk) as [cs [_ [_ [_ [F _]]]]].
  apply Forall_forall. intros lbls I. apply In_nth_error in I. destruct I as [i Ei].
  exact (labels_bounded X clust _ _ (balls_nodup d _ Y cs _ F) B _ out i lbls eq_refl E Ei).
Qed.
Print Assumptions C68_labels.

(** ** C68: and the graph has a number of nodes and of edges that is linear in the number of points. *)
Theorem C68_size : forall m K d (c : ball_cover R) Y,
  @pseudo_metric_on (list R) (dim m) d -> comparable m K d -> (1 <= K)%nat -> Forall (dim m) Y -> 0 < bc_radius c ->
  (1 <= bc_leaf_capacity c)%nat -> tp_kind (bc_tree c) <> OtherKind ->
  forall (T : Type) (X : list T) clust g, mapper_graph X (ball_apply Rleb Rltb Rgap 0 d c Y) clust = Ok g ->
  let B := ((2 * K) ^ m)%nat in
  (length (g_nodes g) <= length X * B)%nat /\ (ends g <= length X * (B * (B - 1)))%nat.
Proof.
  intros m K d c Y Hd HC HK HY Hr Hc Hk T X clust g E B. pose proof (C68_overlaps m K d c Y Hd HC HK HY Hr Hc Hk) as Q.
  destruct (ball_apply_real (dim m) d c Y Hd HY Hr Hc Hk) as [cs [_ [_ [_ [F _]]]]].
  exact (size_bounded X clust _ _ (balls_nodup d _ Y cs _ F) Q _ g eq_refl E).
Qed.
Print Assumptions C68_size.

(** ** C68: when every ball is one cluster, a node has fewer than [(4 K) ^ m] neighbours. *)
Theorem C68_degree : forall m K d (c : ball_cover R) Y,
  @pseudo_metric_on (list R) (dim m) d -> comparable m K d -> (1 <= K)%nat -> Forall (dim m) Y -> 0 < bc_radius c ->
  (1 <= bc_leaf_capacity c)%nat -> tp_kind (bc_tree c) <> OtherKind ->
  forall (T : Type) (X : list T) g,
  mapper_graph X (ball_apply Rleb Rltb Rgap 0 d c Y) (fun _ => trivial_clustering) = Ok g ->
  forall a nb, In (a, nb) (g_adj g) -> (length nb < (4 * K) ^ m)%nat.
Proof.
  intros m K d c Y Hd HC HK HY Hr Hc Hk T X g E. destruct (ball_apply_real (dim m) d c Y Hd HY Hr Hc Hk) as [cs [_ [_ [S [F Sep]]]]].
  apply (balls_degree m K d (bc_radius c) Y cs _ HC Hr HK HY S F Sep X (fun _ => trivial_clustering) _ g eq_refl E).
  intros k l l' [i [_ [ids [lbls [j [[_ [xs [_ L1]]] [_ L2]]]]]]] [i' [_ [ids' [lbls' [j' [[_ [xs' [_ L1']]] [_ L2']]]]]]].
  assert (Z0 : forall (zs : list T) ls q w, trivial_clustering zs = Ok ls -> nth_error ls q = Some w -> w = 0%Z).
  { intros zs ls q w R1 R2. injection R1 as <-. apply nth_error_In in R2. apply in_map_iff in R2. destruct R2 as [_ [<- _]]. reflexivity. }
  rewrite (Z0 xs lbls j l L1 L2), (Z0 xs' lbls' j' l' L1' L2'). reflexivity.
Qed.
Print Assumptions C68_degree.

(** ** C68: for the metrics by name, on rows of [m] numbers. *)
Theorem C68_named : forall name m K (c : ball_cover R) Y,
  In (name, K) [("chebyshev"%string, 1%nat); ("euclidean"%string, S (Nat.sqrt (m - 1))); ("manhattan"%string, m)] -> (1 <= m)%nat ->
  Forall (dim m) Y -> 0 < bc_radius c -> (1 <= bc_leaf_capacity c)%nat -> tp_kind (bc_tree c) <> OtherKind ->
  exists d : list R -> list R -> R, get_metric RA sqrt (Name name) [] = Ok (total_fn RA d) /\
    let cover := ball_apply Rleb Rltb Rgap 0 d c Y in
    (forall i js, sets_with (yields cover) i js -> (length js <= (2 * K) ^ m)%nat) /\
    forall (T : Type) (X : list T) clust out, mapper_labels X cover clust = Ok out ->
      Forall (fun lbls => (length lbls <= (2 * K) ^ m)%nat) out.
Proof.
  intros name m K c Y Hn Hm HY Hr Hc Hk.
  assert (H : forall d : list R -> list R -> R, @metric_on (list R) (dim m) d -> comparable m K d -> (1 <= K)%nat ->
    get_metric RA sqrt (Name name) [] = Ok (total_fn RA d) ->
    exists d : list R -> list R -> R, get_metric RA sqrt (Name name) [] = Ok (total_fn RA d) /\
    let cover := ball_apply Rleb Rltb Rgap 0 d c Y in
    (forall i js, sets_with (yields cover) i js -> (length js <= (2 * K) ^ m)%nat) /\
    forall (T : Type) (X : list T) clust out, mapper_labels X cover clust = Ok out ->
      Forall (fun lbls => (length lbls <= (2 * K) ^ m)%nat) out).
  { intros d M C K1 G. exists d. split; [exact G|]. pose proof (metric_pseudo _ _ M) as P. split.
    - exact (C68_overlaps m K d c Y P C K1 HY Hr Hc Hk).
    - exact (C68_labels m K d c Y P C K1 HY Hr Hc Hk). }
  destruct Hn as [E|[E|[E|[]]]]; injection E as <- <-.
  - apply (H _ (chebyshev_metric m) (C68_chebyshev m)); [lia|reflexivity].
  - assert (Q : (m <= S (Nat.sqrt (m - 1)) * S (Nat.sqrt (m - 1)))%nat).
    { destruct (Nat.sqrt_spec (m - 1) (Nat.le_0_l _)) as [_ Q]. lia. }
    apply (H _ (euclidean_metric m) (C68_euclidean m _ Q ltac:(lia))); [lia|reflexivity].
  - apply (H _ (manhattan_metric m) (C68_manhattan m m (le_n m) Hm)); [lia|reflexivity].
Qed.
Print Assumptions C68_named.

(** ** C68: the same size bound for cubical covers. *)
Theorem C68_cubical_size : forall m eps Y lo hi (c : cubical RA) ov alg K,
  cubical_input m eps Y lo hi c ov -> 0 < ov < 1 -> alg <> OtherAlgorithm -> 1 / (1 - ov) <= INR K ->
  forall (T : Type) (X : list T) clust g, mapper_graph X (cubical_apply RA eps alg c Y) clust = Ok g ->
  let B := (K ^ m)%nat in
  (length (g_nodes g) <= length X * B)%nat /\ (ends g <= length X * (B * (B - 1)))%nat.
Proof.
  intros m eps Y lo hi c ov alg K I H Ha HK T X clust g E B.
  pose proof (C65_overlaps m eps Y lo hi c ov alg K I H Ha HK) as Q. destruct (C65_different_cells m eps Y lo hi c ov alg I H Ha) as [cells C].
  exact (size_bounded X clust _ _ (cubes_nodup _ _ _ _ _ _ _ C) Q _ g eq_refl E).
Qed.
Print Assumptions C68_cubical_size.

(** Non-vacuity: the last of three points on a line is in two balls, the most that C68 allows for [m = K = 1]. *)
Definition dist1 (x y : list Z) : Z := Z.abs (nth 0 x 0 - nth 0 y 0)%Z.
Example C68_runs :
  ball_apply Z.leb Z.ltb zgap 0%Z dist1 (mkball 5%Z tp_flat 1 None) [[-3]; [3]; [0]]%Z = mkgen [[0; 2]; [2; 1]]%nat None.
Proof. vm_compute. reflexivity. Qed.
Example C68_hypotheses_met :
  Forall (dim 1) [[-3]; [3]; [0]] /\ 0 < bc_radius (mkball 5 tp_flat 1 None) /\ tp_kind tp_flat <> OtherKind /\
  sets_with [[0; 2]; [2; 1]]%nat 2 [0; 1]%nat /\ (length [0; 1] = (2 * 1) ^ 1)%nat.
Proof.
  split; [repeat constructor|]. split; [simpl; lra|]. split; [discriminate|]. split; [|reflexivity]. split.
  - repeat constructor; simpl; intuition discriminate.
  - intros j [<-|[<-|[]]]; eexists; (split; [reflexivity|simpl; auto]).
Qed.

(** ** C68: false for metrics in general: the middle of a star with [n] tips is in [n] balls,
    and in the neighbourhoods of [n] points. *)
Definition star (x y : nat) : R := if Nat.eqb x y then 0 else if Nat.eqb x 0 || Nat.eqb y 0 then 1 else 2.
Definition star_points (n : nat) : list nat := seq 1 n ++ [0%nat].
Lemma star_metric : pseudo_metric_on (fun _ => True) star.
Proof.
  unfold star. split.
  - intros x _. rewrite Nat.eqb_refl. reflexivity.
  - intros x y _ _. rewrite (Nat.eqb_sym y x), Bool.orb_comm. reflexivity.
  - intros x y z _ _ _. destruct (Nat.eqb_spec x z), (Nat.eqb_spec x y), (Nat.eqb_spec y z), (Nat.eqb_spec x 0), (Nat.eqb_spec y 0), (Nat.eqb_spec z 0); simpl; try lra; lia.
Qed.
Lemma star_tip n i : (i < n)%nat -> nth_error (star_points n) i = Some (S i).
Proof.
  intro H. unfold star_points. rewrite nth_error_app1 by (rewrite seq_length; exact H).
  rewrite (nth_error_nth' _ 0%nat) by (rewrite seq_length; exact H). rewrite seq_nth by exact H. reflexivity.
Qed.
Lemma star_middle n : nth_error (star_points n) n = Some 0%nat.
Proof. unfold star_points. rewrite nth_error_app2 by (rewrite seq_length; lia). rewrite seq_length, Nat.sub_diag. reflexivity. Qed.
Lemma star_length n : length (star_points n) = S n.
Proof. unfold star_points. rewrite app_length, seq_length. simpl. lia. Qed.
(** If the answer for a tip is the tip and the middle, all tips are centers. *)
Lemma star_net n fit search : fit (star_points n) = Ok search ->
  (forall i, (i < n)%nat -> exists s, search (S i) = Ok s /\ forall j, In j s <-> j = i \/ j = n) ->
  (exists s, search 0%nat = Ok s) ->
  exists js, sets_with (yields (proximity_net fit (star_points n))) n js /\ length js = n.
Proof.
  intros E H [s0 H0].
  assert (St : stops (proximity_net fit (star_points n)) = None).
  { destruct (stops (proximity_net fit (star_points n))) as [e|] eqn:Q; [|reflexivity]. exfalso.
    destruct (net_stops fit (star_points n) search E e Q) as [j [x [Ex Sx]]].
    assert (L : (j < S n)%nat) by (rewrite <- (star_length n); exact (nth_error_lt _ _ _ Ex)).
    destruct (Nat.eq_dec j n) as [->|D].
    - rewrite star_middle in Ex. congruence.
    - rewrite star_tip in Ex by lia. destruct (H j ltac:(lia)) as [s [Es _]]. congruence. }
  destruct (net_first_come search fit (star_points n) E St) as [cs FC]. set (sets := yields (proximity_net fit (star_points n))) in *.
  assert (Tip : forall i, (i < n)%nat -> In i cs).
  { intros i Hi. apply (first_come_member search _ _ _ i FC). destruct (H i Hi) as [s [Es Ms]]. exists (S i), s.
    split; [apply star_tip, Hi|]. split; [exact Es|]. split; [intros ->; apply (proj2 (Ms i)); left; reflexivity|].
    intros c y s' _ Lc Ey Sy I. rewrite star_tip in Ey by lia. destruct (H c ltac:(lia)) as [s2 [E2 M2]].
    assert (s2 = s') by congruence. subst s2. apply M2 in I. lia. }
  destruct FC as [[Hs [F _]] _].
  destruct (choose (fun i k => nth_error cs k = Some i /\ (i < n)%nat) (seq 0 n)) as [ks G].
  { intros i I. apply in_seq in I. destruct (In_nth_error cs i) as [k Ek]; [apply Tip; lia|]. exists k. split; [exact Ek|lia]. }
  exists ks. split; [|rewrite <- (F2_length _ _ _ G); apply seq_length]. split.
  - apply (choice_nodup _ _ _ G (seq_NoDup _ _)). intros a b k _ _ [A _] [B _]. congruence.
  - intros k Ik. destruct (F2_in _ _ _ _ G Ik) as [i [_ [Ek Hi]]]. destruct (F2_nth_l _ _ _ _ _ F Ek) as [s [Es [[x [Ex Sx]] _]]].
    exists s. split; [exact Es|]. rewrite star_tip in Ex by exact Hi. destruct (H i Hi) as [s2 [E2 M2]]. assert (s2 = s) by congruence. subst s2.
    apply M2. right. reflexivity.
Qed.

Theorem C68_any_metric_refuted : forall n, exists (d : nat -> nat -> R) (c : ball_cover R) (X : list nat),
  pseudo_metric_on (fun _ => True) d /\ 0 < bc_radius c /\ (1 <= bc_leaf_capacity c)%nat /\ tp_kind (bc_tree c) <> OtherKind /\
  exists i js, sets_with (yields (ball_apply Rleb Rltb Rgap 0 d c X)) i js /\ length js = n.
Proof.
  intro n. exists star, (mkball 2 tp_flat 1 None), (star_points n). split; [exact star_metric|]. split; [simpl; lra|]. split; [simpl; lia|].
  split; [discriminate|]. exists n.
  destruct (ball_search_real (fun _ => True) star (mkball 2 tp_flat 1 None) (star_points n) star_metric) as [search [E H]];
    [apply Forall_forall; auto|intro Q; pose proof (star_length n) as L; rewrite Q in L; discriminate|simpl; lia|discriminate|].
  apply (star_net n _ search E).
  - intros i Hi. destruct (H (S i) Logic.I) as [s [Es [_ Ms]]]. exists s. split; [exact Es|]. intro j. rewrite Ms. cbn [bc_radius]. split.
    + intros [x [Ex Dx]]. assert (L : (j < S n)%nat) by (rewrite <- (star_length n); exact (nth_error_lt _ _ _ Ex)).
      destruct (Nat.eq_dec j n) as [->|D]; [right; reflexivity|left]. rewrite star_tip in Ex by lia. injection Ex as <-.
      unfold star in Dx. destruct (Nat.eqb_spec (S i) (S j)); [lia|]. simpl in Dx. lra.
    + intros [->| ->]; [exists (S i)|exists 0%nat]; (split; [first [apply star_tip; exact Hi|apply star_middle]|]); unfold star.
      * rewrite Nat.eqb_refl. lra.
      * simpl. lra.
  - destruct (H 0%nat Logic.I) as [s [Es _]]. exists s. exact Es.
Qed.
Print Assumptions C68_any_metric_refuted.

Theorem C68_neighbours_refuted : forall n, exists (d : nat -> nat -> R) (c : knn_cover R) (X : list nat),
  pseudo_metric_on (fun _ => True) d /\ kc_neighbors c = 2%nat /\ tp_kind (kc_tree c) <> OtherKind /\
  exists i js, sets_with (yields (knn_apply Rleb Rltb Rgap 0 d c X)) i js /\ length js = n.
Proof.
  intro n. exists star, (mkknn 2 tp_flat None 0), (star_points n). split; [exact star_metric|]. split; [reflexivity|].
  split; [discriminate|]. exists n.
  destruct (knn_search_real (fun _ => True) star (mkknn 2 tp_flat None 0) (star_points n) star_metric) as [search [E H]];
    [apply Forall_forall; auto|intro Q; pose proof (star_length n) as L; rewrite Q in L; discriminate|simpl; lia|discriminate|].
  apply (star_net n _ search E).
  - intros i Hi. destruct (H (S i) Logic.I) as [s [Es [Ns [Ls [Rs Ms]]]]]. exists s. split; [exact Es|].
    rewrite star_length in Ls. cbn [kc_neighbors] in Ls. rewrite Nat.min_l in Ls by lia.
    assert (Ne : exists a b, s = [a; b] /\ a <> b).
    { destruct s as [|a [|b [|q s]]]; try discriminate. exists a, b. split; [reflexivity|]. inversion Ns as [|? ? N1 _]; subst. intros ->. apply N1. left. reflexivity. }
    assert (Self : star (S i) (S i) = 0) by (unfold star; rewrite Nat.eqb_refl; reflexivity).
    assert (Mid : star (S i) 0 = 1) by reflexivity.
    assert (Oth : forall j, (j < n)%nat -> j <> i -> star (S i) (S j) = 2).
    { intros j _ D. unfold star. destruct (Nat.eqb_spec (S i) (S j)); [lia|reflexivity]. }
    assert (Far : forall j, In j s -> j <> n -> j <> i -> (j < n)%nat).
    { intros j I D _. specialize (Rs j I). rewrite star_length in Rs. lia. }
    assert (Ii : In i s).
    { destruct (in_dec Nat.eq_dec i s) as [I|I]; [exact I|]. exfalso. destruct Ne as [a [b [-> D]]].
      assert (Q : forall j x, In j [a; b] -> nth_error (star_points n) j = Some x -> star (S i) x <= 0).
      { intros j x Ij Ex. rewrite <- Self. apply (Ms j i x (S i) Ij I Ex). apply star_tip, Hi. }
      destruct (Nat.eq_dec a n) as [->|Da].
      - specialize (Q n 0%nat (or_introl eq_refl) (star_middle n)). lra.
      - assert (a <> i) by (intros ->; apply I; left; reflexivity).
        assert (La : (a < n)%nat) by (apply Far; auto; left; reflexivity).
        specialize (Q a (S a) (or_introl eq_refl) (star_tip n a La)). rewrite Oth in Q by auto. lra. }
    assert (In_ : In n s).
    { destruct (in_dec Nat.eq_dec n s) as [I|I]; [exact I|]. exfalso. destruct Ne as [a [b [-> D]]].
      assert (exists j, In j [a; b] /\ j <> i) as [j [Ij Dj]].
      { destruct (Nat.eq_dec a i) as [->|Da]; [exists b|exists a]; simpl; auto. }
      assert (Dn : j <> n) by (intros ->; contradiction). assert (Lj : (j < n)%nat) by (apply Far; auto).
      pose proof (Ms j n (S j) 0%nat Ij I (star_tip n j Lj) (star_middle n)) as Q. rewrite Oth in Q by auto. lra. }
    intro j. destruct Ne as [a [b [-> D]]]. simpl in Ii, In_. split.
    + intros [<-|[<-|[]]]; lia.
    + intros [->| ->]; simpl; intuition.
  - destruct (H 0%nat Logic.I) as [s [Es _]]. exists s. exact Es.
Qed.
Print Assumptions C68_neighbours_refuted.
