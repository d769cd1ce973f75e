(** C52: nearest neighbours computed in double precision. *)
From Coq Require Import String Reals Lra Sorted.
From Flocq Require Import Core BinarySingleNaN.
From Verif Require Import Base ModelCore SpecNet ModelVPTree ModelArith ModelCover SpecCover ModelMetrics SpecMetric SpecMetrics
  SpecCubical ModelFloat FloatFacts SpecDouble FloatCover FloatMetric FloatNamed FloatGrid MetricFacts SpecKnnDouble ModelFastmath FastmathProp FloatKnn PropFloat.
Open Scope R_scope.

(** ** C52: neighbours on distances computed in double precision *)

(** [KNNCover] with a named distance, on either tree: the neighbours it finds for a
    point, and every set of the cover, are nearest up to six rounding errors. Ties
    and repeated points are allowed. *)
Theorem C52_knn_accuracy : forall name m (c : knn_cover b64) (X : list (list b64)),
  In name ["euclidean"; "manhattan"; "chebyshev"]%string -> (Z.of_nat m <= 2 ^ 20)%Z ->
  Forall (moderate m) X -> X <> [] -> magnitude (kc_leaf_radius c) ->
  (1 <= kc_neighbors c)%nat -> tp_kind (kc_tree c) <> OtherKind ->
  exists d D search,
    get_metric BA b_sqrt (Name name) [] = Ok (total_fn BA d) /\
    get_metric RA sqrt (Name name) [] = Ok (total_fn RA D) /\
    knn_fit b_le b_lt b_gap b_zero d c X = Ok search /\
    (forall q, moderate m q -> exists ids, search q = Ok ids /\ neighbours_of m D (kc_neighbors c) X q ids) /\
    let net := knn_apply b_le b_lt b_gap b_zero d c X in
    stops net = None /\
    exists centers, StronglySorted lt centers /\
      Forall2 (fun i s => exists x, nth_error X i = Some x /\ neighbours_of m D (kc_neighbors c) X x s)
        centers (yields net).
Proof. exact named_knn_search. Qed.
Print Assumptions C52_knn_accuracy.

(** The same for sums taken in any order and grouping, with or without fused
    multiply-add. *)
Theorem C52_any_order_knn : forall name m p (c : knn_cover b64) (X : list (list b64)),
  In name ["euclidean"; "manhattan"; "chebyshev"]%string -> (Z.of_nat m <= 2 ^ 20)%Z -> plan_for m p ->
  Forall (moderate m) X -> X <> [] -> magnitude (kc_leaf_radius c) ->
  (1 <= kc_neighbors c)%nat -> tp_kind (kc_tree c) <> OtherKind ->
  let d := fast_metric name p in let net := knn_apply b_le b_lt b_gap b_zero d c X in
  exists D, get_metric RA sqrt (Name name) [] = Ok (total_fn RA D) /\
    (exists search, knn_fit b_le b_lt b_gap b_zero d c X = Ok search /\
       forall q, moderate m q -> exists ids, search q = Ok ids /\ neighbours_of m D (kc_neighbors c) X q ids) /\
    stops net = None /\
    exists centers, StronglySorted lt centers /\
      Forall2 (fun i s => exists x, nth_error X i = Some x /\ neighbours_of m D (kc_neighbors c) X x s)
        centers (yields net).
Proof.
  intros name m p c X Hn Hm Hp HX Ne Hlr Hc Hk. cbv zeta. destruct (fast_double name m p Hn Hm Hp) as [D [G C]].
  exists D. split; [exact G|]. exact (close_knn_net m _ D c X C Hm HX Ne Hlr Hc Hk).
Qed.
Print Assumptions C52_any_order_knn.

(** Any other distance, on points of any kind, with computed distances off by at
    most [err] from some [D] that obeys the triangle inequality. *)
Theorem C52_knn_any_distance : forall (T : Type) (d : T -> T -> b64) (c : knn_cover b64) (X : list T),
  magnitude (kc_leaf_radius c) -> distances_ok d X -> X <> [] ->
  (1 <= kc_neighbors c)%nat -> tp_kind (kc_tree c) <> OtherKind ->
  exists search, knn_fit b_le b_lt b_gap b_zero d c X = Ok search /\
    forall q, distances_ok d (q :: X) -> exists ids, search q = Ok ids /\ NoDup ids /\
      length ids = Nat.min (kc_neighbors c) (length X) /\ (forall j, In j ids -> (j < length X)%nat) /\
      (forall D err, triangle_on D (q :: X) -> computes d D err (q :: X) ->
         forall j y i z, In j ids -> nth_error X j = Some y -> ~ In i ids -> nth_error X i = Some z ->
           D q y <= (1 + bpow radix2 (-53)) * (D q z + 4 * err) + err).
Proof. intros T d. exact (knn_search_double d). Qed.
Print Assumptions C52_knn_any_distance.

(** Points on a parabola, and a query between two of them; in the second half the
    same on the other tree, with a point twice. *)
Example C52_knn_met :
  let q := map b_ofz [3; 7]%Z in
  let c k t := mkknn k t None (b_ofz 0) in
  let found k t X := bind (knn_fit b_le b_lt b_gap b_zero (euclidean BA b_sqrt) (c k t) X) (fun s => s q) in
  Forall (moderate 2) (q :: parabola) /\ magnitude (b_ofz 0) /\
  found 2%nat hier parabola = Ok [2; 3]%nat /\
  found 3%nat flat (parabola ++ [map b_ofz [3; 9]%Z]) = Ok [2; 3; 5]%nat.
Proof.
  cbv zeta. split.
  { change (Forall (moderate 2) (ints [[3; 7]; [0; 0]; [1; 1]; [2; 4]; [3; 9]; [4; 16]]%Z)).
    apply ints_moderate; repeat (constructor; [split; [reflexivity|repeat (constructor; [reflexivity||lia|]); constructor]|]); constructor. }
  split; [destruct (b_ofz_val 0 eq_refl) as [F V]; split; [exact F|rewrite V; lra]|].
  split; vm_compute; reflexivity.
Qed.

(** The margin is needed: the point found can be farther away than a point left
    out, by the true distance. *)
Theorem C52_knn_exact_refuted : exists (X : list (list b64)) (c : knn_cover b64) (q : list b64) search j y i z ids,
  Forall (moderate 1) (q :: X) /\ magnitude (kc_leaf_radius c) /\
  (1 <= kc_neighbors c)%nat /\ tp_kind (kc_tree c) <> OtherKind /\
  knn_fit b_le b_lt b_gap b_zero (manhattan BA b_sqrt) c X = Ok search /\ search q = Ok ids /\
  In j ids /\ nth_error X j = Some y /\ ~ In i ids /\ nth_error X i = Some z /\
  manhattan RA sqrt (reals q) (reals z) < manhattan RA sqrt (reals q) (reals y).
Proof.
  set (X := [[b_ofz (- (2 ^ 52) - 1)]; [b_ofz (- (2 ^ 52))]]).
  set (c := mkknn 1 flat None (b_ofz 0)). set (q := [b_ofz (2 ^ 52)]).
  assert (M : forall z, (Z.abs z < 2 ^ 53)%Z -> small 500 (b_ofz z)).
  { intros z H. destruct (b_ofz_val z H) as [F V]. split; [exact F|]. rewrite V, <- abs_IZR.
    apply Rle_trans with (bpow radix2 53); [|apply bpow_le; lia]. change (bpow radix2 53) with (IZR (2 ^ 53)). apply IZR_le. lia. }
  assert (MX : Forall (moderate 1) (q :: X)).
  { repeat (constructor; [split; [reflexivity|constructor; [apply M; lia|constructor]]|]). constructor. }
  assert (Mr : magnitude (b_ofz 0)).
  { destruct (b_ofz_val 0 eq_refl) as [F V]; split; [exact F|rewrite V; lra]. }
  destruct (knn_search_double (manhattan BA b_sqrt) c X Mr) as [search [E S]].
  - apply (well_ok 1); [apply manhattan_well; lia|]. apply Forall_cons_iff in MX. apply MX.
  - discriminate.
  - simpl. lia.
  - discriminate.
  - assert (R : bind (knn_fit b_le b_lt b_gap b_zero (manhattan BA b_sqrt) c X) (fun s => s q) = Ok [0]%nat) by (vm_compute; reflexivity).
    rewrite E in R.
    exists X, c, q, search, 0%nat, [b_ofz (- (2 ^ 52) - 1)], 1%nat, [b_ofz (- (2 ^ 52))], [0]%nat.
    split; [exact MX|]. split; [exact Mr|]. split; [simpl; lia|]. split; [discriminate|].
    split; [exact E|]. split; [exact R|].
    split; [left; reflexivity|]. split; [reflexivity|]. split; [simpl; intuition lia|]. split; [reflexivity|].
    unfold q, reals. cbn [map].
    rewrite (proj2 (b_ofz_val (2 ^ 52) eq_refl)), (proj2 (b_ofz_val (- (2 ^ 52) - 1) eq_refl)), (proj2 (b_ofz_val (- (2 ^ 52)) eq_refl)).
    rewrite !manhattan_total. unfold total. cbn. rewrite !Rabs_right by lra. lra.
Qed.
Print Assumptions C52_knn_exact_refuted.
