(** Open covers: C25 - C31. *)
From Coq Require Import Reals Lra QArith Sorted.
From Verif Require Import Base ModelCore ModelQuickselect ModelVPTree SpecVPTree SpecMetric ModelArith ModelCover
  SpecCover SpecCubical CoverProp CubicalProp CubicalFacts.
Open Scope nat_scope.

(** ** C25: BallCover.search *)
Theorem C25_search_is_open_ball : forall {T : Type} (P : T -> Prop) (d : T -> T -> R) (c : ball_cover R) (X : list T),
  pseudo_metric_on P d -> Forall P X -> X <> [] ->
  1 <= bc_leaf_capacity c -> tp_kind (bc_tree c) <> OtherKind ->
  exists search, ball_fit Rleb Rltb Rgap 0%R d c X = Ok search /\
    forall q, P q -> exists ids, search q = Ok ids /\ NoDup ids /\
      forall i, In i ids <-> exists x, nth_error X i = Some x /\ (d q x < bc_radius c)%R.
Proof. exact @ball_search_real. Qed.
Print Assumptions C25_search_is_open_ball.

(** The same for any ordered distances for which pruning is safe. *)
Theorem C25_search_is_open_ball_any : forall {T D : Type} (metric : T -> T -> D) (leb ltb : D -> D -> bool)
    (gap : D -> D -> D) (zero : D) (c : ball_cover D) (X : list T),
  order_ok leb ltb gap -> 1 <= bc_leaf_capacity c -> X <> [] -> tp_kind (bc_tree c) <> OtherKind ->
  exists search, ball_fit leb ltb gap zero metric c X = Ok search /\
    forall q, searchable metric leb ltb gap X q ->
      exists ids, search q = Ok ids /\ open_ball metric ltb X (bc_radius c) q ids.
Proof. exact @ball_search_exact. Qed.
Print Assumptions C25_search_is_open_ball_any.

(** Fitted on no data, the flat tree has nothing to look at: the search raises.
    The hierarchical tree answers with the empty ball. *)
Theorem C25_empty_dataset : forall {T D : Type} (metric : T -> T -> D) (leb ltb : D -> D -> bool)
    (gap : D -> D -> D) (zero : D) (c : ball_cover D),
  (tp_kind (bc_tree c) = Flat -> exists search,
     ball_fit leb ltb gap zero metric c [] = Ok search /\ forall q, search q = Err IndexError) /\
  (tp_kind (bc_tree c) = Hierarchical -> exists search,
     ball_fit leb ltb gap zero metric c [] = Ok search /\ forall q, search q = Ok []).
Proof.
  intros. unfold ball_fit, ball_fit_tree. split; intros ->; eexists; (split; [reflexivity|]); intro q; reflexivity.
Qed.
Print Assumptions C25_empty_dataset.

(** Non-vacuity: seven points on a line, two of them equal, open ball around 4. *)
Definition zgap (a b : Z) : Z := Z.abs (a - b).
Definition zmetric (a b : Z) : Z := Z.abs (a - b).
Definition tp_flat : tree_params := mktp Flat Disabled (fun c => 3 * c + 1).
Definition tp_hier : tree_params := mktp Hierarchical Furthest (fun c => 3 * c + 1).
Definition demo_line : list Z := [10; 3; 5; 5; 0; 6; 2]%Z.
Example C25_hypotheses_met :
  order_ok Z.leb Z.ltb zgap /\
  (forall X q, searchable zmetric Z.leb Z.ltb zgap X q) /\
  (do s <- ball_fit Z.leb Z.ltb zgap 0%Z zmetric (mkball 2%Z tp_flat 1 None) demo_line; s 4%Z)
    = Ok [2; 1; 3] /\
  (do s <- ball_fit Z.leb Z.ltb zgap 0%Z zmetric (mkball 2%Z tp_hier 2 (Some 0%Z)) demo_line; s 4%Z)
    = Ok [1; 3; 2].
Proof.
  split; [|split; [|split; vm_compute; reflexivity]].
  - split; unfold zgap; intros.
    + rewrite !Z.leb_le. lia.
    + rewrite Z.leb_le in *. lia.
    + rewrite Z.ltb_antisym. reflexivity.
    + rewrite Z.leb_le. lia.
  - intros X q. split; [intros; unfold zmetric; lia|].
    intros v y x _ _ _ [[H1 H2]|[H1 H2]]; unfold zmetric, zgap in *; rewrite ?Z.leb_le, ?Z.ltb_lt in *; lia.
Qed.
Example C25_real_line : pseudo_metric_on (fun _ => True) (fun a b : R => Rabs (a - b)).
Proof.
  split; intros.
  - rewrite Rminus_diag_eq by reflexivity. apply Rabs_R0.
  - apply Rabs_minus_sym.
  - replace (x - z)%R with ((x - y) + (y - z))%R by ring. apply Rabs_triang.
Qed.

(** ** C26: BallCover.apply *)
Theorem C26_apply_is_cover_and_net : forall {T : Type} (P : T -> Prop) (d : T -> T -> R) (c : ball_cover R) (X : list T),
  pseudo_metric_on P d -> Forall P X -> (0 < bc_radius c)%R ->
  1 <= bc_leaf_capacity c -> tp_kind (bc_tree c) <> OtherKind ->
  exists centers,
    let net := ball_apply Rleb Rltb Rgap 0%R d c X in
    stops net = None /\ covers (length X) (yields net) /\ StronglySorted lt centers /\
    Forall2 (fun i s => exists x, nth_error X i = Some x /\ NoDup s /\ In i s /\
               forall j, In j s <-> exists y, nth_error X j = Some y /\ (d x y < bc_radius c)%R)
      centers (yields net) /\
    forall a b x y, In a centers -> In b centers -> a <> b ->
      nth_error X a = Some x -> nth_error X b = Some y -> (bc_radius c <= d x y)%R.
Proof. exact @ball_apply_real. Qed.
Print Assumptions C26_apply_is_cover_and_net.

Theorem C26_apply_is_cover_and_net_any : forall {T D : Type} (metric : T -> T -> D) (leb ltb : D -> D -> bool)
    (gap : D -> D -> D) (zero : D) (c : ball_cover D) (X : list T),
  order_ok leb ltb gap -> 1 <= bc_leaf_capacity c -> tp_kind (bc_tree c) <> OtherKind ->
  (forall x, In x X -> searchable metric leb ltb gap X x) ->
  (forall x, In x X -> ltb (metric x x) (bc_radius c) = true) ->
  exists centers,
    let net := ball_apply leb ltb gap zero metric c X in
    stops net = None /\ covers (length X) (yields net) /\
    StronglySorted lt centers /\
    Forall2 (fun i s => exists x, nth_error X i = Some x /\
               open_ball metric ltb X (bc_radius c) x s /\ In i s) centers (yields net) /\
    forall a b x y, In a centers -> In b centers -> a <> b ->
      nth_error X a = Some x -> nth_error X b = Some y -> ltb (metric x y) (bc_radius c) = false.
Proof. exact @ball_apply_net. Qed.
Print Assumptions C26_apply_is_cover_and_net_any.

(** A radius that is not positive is accepted and covers nothing. *)
Theorem C26_radius_not_positive : forall {T : Type} (P : T -> Prop) (d : T -> T -> R) (c : ball_cover R) (X : list T),
  pseudo_metric_on P d -> Forall P X -> (bc_radius c <= 0)%R ->
  1 <= bc_leaf_capacity c -> tp_kind (bc_tree c) <> OtherKind ->
  ball_apply Rleb Rltb Rgap 0%R d c X = mkgen [] None.
Proof. exact @ball_apply_nonpos. Qed.
Print Assumptions C26_radius_not_positive.

Example C26_hypotheses_met :
  (forall x, In x demo_line -> Z.ltb (zmetric x x) 3 = true) /\
  ball_apply Z.leb Z.ltb zgap 0%Z zmetric (mkball 3%Z tp_flat 1 None) demo_line =
    mkgen [[0]; [2; 1; 6; 3]; [6; 4]; [5; 3; 2]] None.
Proof.
  split; [|vm_compute; reflexivity]. intros x _. unfold zmetric. apply Z.ltb_lt. lia.
Qed.

(** ** C27: KNNCover *)
Theorem C27_search_is_nearest : forall {T : Type} (P : T -> Prop) (d : T -> T -> R) (c : knn_cover R) (X : list T),
  pseudo_metric_on P d -> Forall P X -> X <> [] ->
  1 <= kc_neighbors c -> tp_kind (kc_tree c) <> OtherKind ->
  exists search, knn_fit Rleb Rltb Rgap 0%R d c X = Ok search /\
    forall q, P q -> exists ids, search q = Ok ids /\ NoDup ids /\
      length ids = Nat.min (kc_neighbors c) (length X) /\
      (forall i, In i ids -> i < length X) /\
      forall i j x y, In i ids -> ~ In j ids -> nth_error X i = Some x -> nth_error X j = Some y ->
        (d q x <= d q y)%R.
Proof. exact @knn_search_real. Qed.
Print Assumptions C27_search_is_nearest.

Theorem C27_search_is_nearest_any : forall {T D : Type} (metric : T -> T -> D) (leb ltb : D -> D -> bool)
    (gap : D -> D -> D) (zero : D) (c : knn_cover D) (X : list T),
  order_ok leb ltb gap -> 1 <= kc_neighbors c -> X <> [] -> tp_kind (kc_tree c) <> OtherKind ->
  exists search, knn_fit leb ltb gap zero metric c X = Ok search /\
    forall q, searchable metric leb ltb gap X q ->
      exists ids, search q = Ok ids /\ nearest metric leb X (kc_neighbors c) q ids.
Proof. exact @knn_search_exact. Qed.
Print Assumptions C27_search_is_nearest_any.

(** Coverage, if no point has [k] or more other points at distance 0. *)
Theorem C27_apply_covers : forall {T : Type} (P : T -> Prop) (d : T -> T -> R) (c : knn_cover R) (X : list T),
  pseudo_metric_on P d -> Forall P X ->
  1 <= kc_neighbors c -> tp_kind (kc_tree c) <> OtherKind ->
  (forall i x, nth_error X i = Some x -> forall l, NoDup l ->
     (forall j, In j l -> j <> i /\ exists y, nth_error X j = Some y /\ d x y = 0%R) ->
     length l < kc_neighbors c) ->
  stops (knn_apply Rleb Rltb Rgap 0%R d c X) = None /\
  covers (length X) (yields (knn_apply Rleb Rltb Rgap 0%R d c X)).
Proof. exact @knn_apply_real. Qed.
Print Assumptions C27_apply_covers.

(** What is yielded in any case, and coverage for any ordered distances. *)
Theorem C27_apply_any : forall {T D : Type} (metric : T -> T -> D) (leb ltb : D -> D -> bool)
    (gap : D -> D -> D) (zero : D) (c : knn_cover D) (X : list T),
  order_ok leb ltb gap -> 1 <= kc_neighbors c -> tp_kind (kc_tree c) <> OtherKind ->
  (forall x, In x X -> searchable metric leb ltb gap X x) ->
  exists centers,
    let net := knn_apply leb ltb gap zero metric c X in
    stops net = None /\ StronglySorted lt centers /\
    Forall2 (fun i s => exists x, nth_error X i = Some x /\ nearest metric leb X (kc_neighbors c) x s)
      centers (yields net) /\
    (forall m m' i s, m' < m -> nth_error centers m = Some i -> nth_error (yields net) m' = Some s -> ~ In i s) /\
    ((forall x, In x X ->
        length (filter (fun y => leb (metric x y) (metric x x)) X) <= kc_neighbors c) ->
     covers (length X) (yields net)).
Proof. exact @knn_apply_net. Qed.
Print Assumptions C27_apply_any.

Example C27_hypotheses_met :
  (forall x, In x demo_line ->
     length (filter (fun y => Z.leb (zmetric x y) (zmetric x x)) demo_line) <= 2) /\
  knn_apply Z.leb Z.ltb zgap 0%Z zmetric (mkknn 2 tp_flat None 0%Z) demo_line =
    mkgen [[5; 0]; [6; 1]; [2; 3]; [6; 4]] None.
Proof.
  split; [|vm_compute; reflexivity]. intros x Hx. unfold demo_line in Hx. simpl in Hx.
  repeat (destruct Hx as [<-|Hx]; [vm_compute; lia|]). contradiction.
Qed.

(** Duplicated points are left out: [k = 1], the point 5 twice. *)
Theorem C27_apply_covers_duplicates_refuted : exists (c : knn_cover Z) (X : list Z),
  1 <= kc_neighbors c /\ tp_kind (kc_tree c) <> OtherKind /\
  stops (knn_apply Z.leb Z.ltb zgap 0%Z zmetric c X) = None /\
  ~ covers (length X) (yields (knn_apply Z.leb Z.ltb zgap 0%Z zmetric c X)).
Proof.
  exists (mkknn 1 tp_flat None 0%Z), [5; 5; 7]%Z. split; [simpl; lia|]. split; [discriminate|].
  split; [vm_compute; reflexivity|]. intro H. destruct (H 1 ltac:(simpl; lia)) as [s [I J]].
  vm_compute in I. repeat (destruct I as [<-|I]; [vm_compute in J; lia|]). contradiction.
Qed.
Print Assumptions C27_apply_covers_duplicates_refuted.

(** ** C28 - C30: cubical covers *)
(** A non-empty dataset of [m] columns with column bounds [lo], [hi] and a cubical
    cover with the overlap [ov] (given or default). *)
Record cubical_input (m : nat) (eps : R) (X : list (list R)) (lo hi : nat -> R) (c : cubical RA) (ov : R)
  : Prop := mk_cubical_input {
  ci_dim : 1 <= m;
  ci_n : (1 <= cu_n_intervals RA c)%Z;
  ci_eps : (0 <= eps <= 1)%R;
  ci_rows : Forall (fun x => length x = m) X;
  ci_nonempty : X <> [];
  ci_bounds : column_bounds m X lo hi;
  ci_overlap : overlap_is m (cu_overlap_frac RA c) ov;
  ci_cap : 1 <= cu_leaf_capacity RA c;
  ci_kind : tp_kind (cu_tree RA c) <> OtherKind }.

Open Scope R_scope.
Theorem C28_search_is_hypercube : forall m eps X lo hi (c : cubical RA) ov,
  cubical_input m eps X lo hi c ov -> 0 < ov < 1 ->
  let n := cu_n_intervals RA c in let p := grid_pos n eps lo hi in
  exists search, cubical_fit RA eps c X = Ok search /\
    forall q k, length q = m -> in_cell m n p q k ->
    exists ids, search q = Ok ids /\ cube_ids m (1 / (2 - 2 * ov)) p X k ids.
Proof. intros m eps X lo hi c ov [] H. apply cubical_search_exact; tauto. Qed.
Print Assumptions C28_search_is_hypercube.

(** Every query has exactly one cell. *)
Theorem C28_one_cell : forall m eps lo hi (c : cubical RA) q,
  (1 <= cu_n_intervals RA c)%Z -> length q = m ->
  let n := cu_n_intervals RA c in let p := grid_pos n eps lo hi in
  (exists k, in_cell m n p q k) /\
  forall k k', in_cell m n p q k -> in_cell m n p q k' -> k = k'.
Proof.
  intros m eps lo hi c q Hn Hq. cbn zeta. split; [apply in_cell_exists; auto|].
  intros. eapply in_cell_unique; eauto.
Qed.
Print Assumptions C28_one_cell.

Theorem C29_cubical_covers : forall m eps X lo hi (c : cubical RA) ov alg,
  cubical_input m eps X lo hi c ov -> 0 < ov < 1 -> alg <> OtherAlgorithm ->
  let n := cu_n_intervals RA c in let p := grid_pos n eps lo hi in
  let net := cubical_apply RA eps alg c X in
  stops net = None /\ covers (length X) (yields net) /\
  forall s, In s (yields net) -> s <> [] /\
    exists x k, In x X /\ in_cell m n p x k /\ cube_ids m (1 / (2 - 2 * ov)) p X k s.
Proof. intros m eps X lo hi c ov alg [] H Ha. apply cubical_covers; tauto. Qed.
Print Assumptions C29_cubical_covers.

(** The proximity variant: its centers are not in earlier sets. *)
Theorem C29_proximity_net : forall m eps X lo hi (c : cubical RA) ov,
  cubical_input m eps X lo hi c ov -> 0 < ov < 1 ->
  let n := cu_n_intervals RA c in let p := grid_pos n eps lo hi in
  let net := cubical_apply RA eps Proximity c X in
  exists centers, StronglySorted lt centers /\
    Forall2 (fun i s => exists x k, nth_error X i = Some x /\ In i s /\ in_cell m n p x k /\
               cube_ids m (1 / (2 - 2 * ov)) p X k s) centers (yields net) /\
    (forall a b i s, (b < a)%nat -> nth_error centers a = Some i ->
       nth_error (yields net) b = Some s -> ~ In i s).
Proof. intros m eps X lo hi c ov [] H. apply proximity_ok; tauto. Qed.
Print Assumptions C29_proximity_net.

Theorem C29_overlap_above_one_covers_nothing : forall m eps X lo hi (c : cubical RA) ov alg,
  cubical_input m eps X lo hi c ov -> 1 < ov -> alg <> OtherAlgorithm ->
  cubical_apply RA eps alg c X = mkgen [] None.
Proof. intros m eps X lo hi c ov alg [] H Ha. apply (cubical_overlap_large m eps X lo hi c ov); tauto. Qed.
Print Assumptions C29_overlap_above_one_covers_nothing.

Theorem C29_empty_dataset : forall (A : arith) eps (c : cubical A) alg, alg <> OtherAlgorithm ->
  cubical_apply A eps alg c [] = mkgen [] None.
Proof. exact @cubical_empty. Qed.
Print Assumptions C29_empty_dataset.

Theorem C30_standard_cells : forall m eps X lo hi (c : cubical RA) ov,
  cubical_input m eps X lo hi c ov -> 0 < ov < 1 ->
  let n := cu_n_intervals RA c in let p := grid_pos n eps lo hi in
  let net := cubical_apply RA eps Standard c X in
  stops net = None /\
  exists cells, NoDup cells /\
    (forall k, In k cells <-> exists x, In x X /\ in_cell m n p x k) /\
    Forall2 (fun k s => s <> [] /\ cube_ids m (1 / (2 - 2 * ov)) p X k s) cells (yields net) /\
    (forall a b k k' i i', (a < b)%nat -> nth_error cells a = Some k -> nth_error cells b = Some k' ->
       first_in_cell m n p X k i -> first_in_cell m n p X k' i' -> (i' < i)%nat).
Proof. intros m eps X lo hi c ov [] H. apply standard_ok; tauto. Qed.
Print Assumptions C30_standard_cells.

(** Non-vacuity: three points on a line, three intervals, overlap 1/2. *)
Definition demo_X : list (list R) := [[0]; [9 / 10]; [3]].
Definition demo_c : cubical RA := @mkcub RA 3 (Some (1 / 2)) tp_flat 1 None.
Example C28_hypotheses_met : forall eps, 0 <= eps <= 1 ->
  cubical_input 1 eps demo_X (fun _ => 0) (fun _ => 3) demo_c (1 / 2).
Proof.
  intros eps He. split; auto; try (simpl; lia); try discriminate.
  - repeat constructor.
  - intros j Hj. assert (j = 0)%nat by lia. subst j. split; [|split].
    + exists [0]. split; [left|]; reflexivity.
    + exists [3]. split; [right; right; left|]; reflexivity.
    + intros x Hx. simpl in Hx. destruct Hx as [<-|[<-|[<-|[]]]]; unfold coord; simpl; lra.
  - reflexivity.
Qed.
(** The same run on rationals; two dimensions, the second one constant. *)
Definition demo_q (ov : option Q) : cubical QA := @mkcub QA 3 ov tp_flat 1 None.
Example C29_runs :
  cubical_apply QA (1 # 1000) Standard (demo_q (Some (1 # 2))) [[0]; [9 # 10]; [3]]%Q =
    mkgen [[2]; [0; 1]]%nat None /\
  cubical_apply QA (1 # 1000) Standard (demo_q (Some (1 # 4))) [[0; 7]; [5; 7]; [9; 7]; [2; 7]]%Q =
    mkgen [[2]; [1]; [0; 3]]%nat None /\
  cubical_apply QA (1 # 1000) Proximity (demo_q (Some (9 # 20))) [[0; 7]; [5; 7]; [9; 7]; [2; 7]]%Q =
    mkgen [[0; 3]; [3; 1]; [1; 2]]%nat None.
Proof. repeat split; vm_compute; reflexivity. Qed.

(** Not every hypercube that meets the data is yielded: the middle one of three
    contains the point 9/10 only, and is not among the sets. *)
Theorem C30_all_intersecting_hypercubes_refuted : forall eps, 0 <= eps <= 1 ->
  exists m X lo hi (c : cubical RA) ov k, cubical_input m eps X lo hi c ov /\ 0 < ov < 1 /\
  let n := cu_n_intervals RA c in let p := grid_pos n eps lo hi in
  length k = m /\ (forall j, (j < m)%nat -> (0 <= nth j k 0 <= n - 1)%Z) /\
  (exists x, In x X /\ in_cube m (1 / (2 - 2 * ov)) p k x) /\
  forall s, In s (yields (cubical_apply RA eps Standard c X)) ->
    ~ cube_ids m (1 / (2 - 2 * ov)) p X k s.
Proof.
  intros eps He. exists 1%nat, demo_X, (fun _ => 0), (fun _ => 3), demo_c, (1 / 2), [1%Z].
  assert (HI := C28_hypotheses_met eps He). split; [exact HI|]. split; [lra|]. cbn zeta.
  split; [reflexivity|].
  assert (Er : 1 / (2 - 2 * (1 / 2)) = 1) by field. rewrite Er.
  assert (Ep : forall j v, grid_pos (cu_n_intervals RA demo_c) eps (fun _ => 0) (fun _ => 3) j v = v).
  { intros j v. unfold grid_pos. simpl. destruct (Rle_dec (3 - 0) eps); [lra|field]. }
  assert (Hc : forall x k, in_cube 1 1 (grid_pos (cu_n_intervals RA demo_c) eps (fun _ => 0) (fun _ => 3)) k x <->
             Rabs (coord x 0 - (IZR (nth 0 k 0%Z) + 1 / 2)) < 1).
  { intros x k. unfold in_cube. split; intro H.
    - specialize (H 0%nat ltac:(lia)). rewrite Ep in H. exact H.
    - intros j Hj. assert (j = 0)%nat by lia. subst j. rewrite Ep. exact H. }
  split; [intros j Hj; assert (j = 0)%nat by lia; subst j; simpl; lia|]. split.
  - exists [9 / 10]. split; [right; left; reflexivity|]. apply Hc. unfold coord. simpl. apply Rabs_def1; lra.
  - intros s Hs [_ B].
    destruct (C29_cubical_covers _ _ _ _ _ _ _ Standard HI ltac:(lra) ltac:(discriminate)) as [_ [_ F]].
    destruct (F s Hs) as [Ne [x [k [Ix [Ck [_ B']]]]]]. cbn zeta in *. rewrite Er in B'.
    (* s is {1} *)
    assert (S0 : ~ In 0%nat s).
    { intro I. apply B in I as [y [N I]]. injection N as <-. apply Hc in I. unfold coord in I. simpl in I.
      apply Rabs_def2 in I. lra. }
    assert (S2 : ~ In 2%nat s).
    { intro I. apply B in I as [y [N I]]. injection N as <-. apply Hc in I. unfold coord in I. simpl in I.
      apply Rabs_def2 in I. lra. }
    destruct Ck as [Lk Ck]. specialize (Ck 0%nat ltac:(lia)). rewrite Ep in Ck.
    destruct k as [|z [|]]; try discriminate. simpl in Ck. destruct Ck as [C1 [C2 C3]].
    assert (In 0%nat s \/ In 2%nat s); [|tauto].
    simpl in Ix. destruct Ix as [<-|[<-|[<-|[]]]]; unfold coord in *; simpl in *.
    + left. apply B'. exists [0]. split; [reflexivity|]. apply Hc. unfold coord. simpl.
      assert (z = 0)%Z.
      { assert (z < 1)%Z by (apply lt_IZR; lra).
        destruct (Z.eq_dec z 0) as [|Hz]; auto. assert (z + 1 <= 0)%Z by lia. apply IZR_le in H0.
        rewrite plus_IZR in H0. specialize (C3 ltac:(lia)). lra. }
      subst z. apply Rabs_def1; lra.
    + left. apply B'. exists [0]. split; [reflexivity|]. apply Hc. unfold coord. simpl.
      assert (z = 0)%Z.
      { assert (z < 1)%Z by (apply lt_IZR; lra).
        destruct (Z.eq_dec z 0) as [|Hz]; auto. assert (z + 1 <= 0)%Z by lia. apply IZR_le in H0.
        rewrite plus_IZR in H0. specialize (C3 ltac:(lia)). lra. }
      subst z. apply Rabs_def1; lra.
    + right. apply B'. exists [3]. split; [reflexivity|]. apply Hc. unfold coord. simpl.
      assert (z = 2)%Z.
      { destruct (Z.eq_dec z 2) as [|Hz]; auto. specialize (C3 ltac:(lia)).
        assert (z + 1 <= 2)%Z by lia. apply IZR_le in H. rewrite plus_IZR in H. lra. }
      subst z. apply Rabs_def1; lra.
Qed.
Print Assumptions C30_all_intersecting_hypercubes_refuted.

(** ** C31: overlap_frac *)
Theorem C31_overlap_not_positive : forall (eps : R) (c : cubical RA) X ov alg,
  cu_overlap_frac RA c = Some ov -> ov <= 0 -> X <> [] ->
  cubical_fit RA eps c X = Err ValueError /\
  cubical_apply RA eps alg c X = mkgen [] (Some ValueError).
Proof. exact cubical_overlap_nonpos. Qed.
Print Assumptions C31_overlap_not_positive.

Theorem C31_overlap_one : forall (eps : R) (c : cubical RA) X,
  cu_overlap_frac RA c = Some 1 -> X <> [] -> cubical_fit RA eps c X = Err ZeroDivisionError.
Proof. exact cubical_overlap_one. Qed.
Print Assumptions C31_overlap_one.

(** The computed default is the only number in (0, 1/3] with the documented
    volume, in every dimension. *)
Theorem C31_default_computed : forall m ov, (1 <= m)%nat ->
  (get_overlap_frac RA m (1 / 2) = Ok ov <-> default_overlap m ov).
Proof. exact default_overlap_computed. Qed.
Print Assumptions C31_default_computed.
Theorem C31_default_exists : forall m, (1 <= m)%nat -> exists ov, default_overlap m ov.
Proof. exact default_overlap_exists. Qed.
Print Assumptions C31_default_exists.

(** The positions of a cell that no other hypercube reaches are a box of side
    [2 * (1 - r)], [r] being the half side of the hypercubes. *)
Theorem C31_core_is_a_box : forall m r z k, 1 / 2 < r <= 1 -> length k = m ->
  ((forall k', length k' = m -> in_cube m r (fun _ v => v) k' z -> k' = k) /\
   in_cube m r (fun _ v => v) k z <->
   forall j, (j < m)%nat -> Rabs (coord z j - (IZR (nth j k 0%Z) + 1 / 2)) <= 1 - r).
Proof. exact core_box. Qed.
Print Assumptions C31_core_is_a_box.

(** With the default its volume is half of the cell's. *)
Theorem C31_default_core_volume : forall m ov, (1 <= m)%nat -> default_overlap m ov ->
  1 / 2 < 1 / (2 - 2 * ov) <= 1 /\ (2 * (1 - 1 / (2 - 2 * ov))) ^ m = 1 / 2.
Proof. exact default_core_volume. Qed.
Print Assumptions C31_default_core_volume.

(** Read for whole hypercubes, the documentation is off: more than half of each
    hypercube is shared. *)
Theorem C31_half_of_hypercube_refuted : exists m ov, (1 <= m)%nat /\ default_overlap m ov /\
  let r := 1 / (2 - 2 * ov) in 1 - (2 * (1 - r)) ^ m / (2 * r) ^ m <> 1 / 2.
Proof.
  destruct (default_overlap_exists 2 ltac:(lia)) as [ov D]. exists 2%nat, ov. split; [lia|].
  split; [exact D|]. pose proof (default_cube_share 2 ov ltac:(lia) D). cbn zeta in *. lra.
Qed.
Print Assumptions C31_half_of_hypercube_refuted.

(** [overlap_frac] is the share of an interval common with the next one. *)
Theorem C31_adjacent_intervals : forall ov k, 0 < ov < 1 ->
  let r := 1 / (2 - 2 * ov) in
  let left_end := IZR k + 1 / 2 - r in let right_end := IZR k + 1 / 2 + r in
  let next_left := IZR (k + 1) + 1 / 2 - r in
  next_left < right_end /\ right_end - next_left = ov * (right_end - left_end).
Proof. exact adjacent_overlap. Qed.
Print Assumptions C31_adjacent_intervals.

(** Non-vacuity: in dimension 1 the default is 1/3. *)
Example C31_dimension_one : default_overlap 1 (1 / 3) /\
  get_overlap_frac QA 1 (1 # 2) = Ok (1 # 3)%Q.
Proof. split; [split; [lra|simpl; field]|vm_compute; reflexivity]. Qed.
