(** C76: when double precision gives the Mapper graph of exact arithmetic. *)
From Coq Require Import String Reals Lra Permutation Sorted.
From Flocq Require Import Core BinarySingleNaN.
From Verif Require Import Base ModelCore SpecNet ModelVPTree ModelArith ModelCover SpecCore SpecCover ModelMetrics SpecMetric SpecMetrics
  SpecCubical SpecTuning ModelFloat FloatFacts SpecDouble FloatCover FloatMetric FloatNamed FloatGrid MetricFacts MetricProp CoverProp
  FloatCubicalFit SpecFaithful Faithful FaithfulCubical PropFloat.
Open Scope R_scope.

(** ** C76: rounding and the Mapper graph *)

(** [BallCover]: if no distance is close to the radius, rounding changes neither the
    open sets nor, with a clustering that ignores the order of the points, the graph
    and its components. The search trees may differ, too. *)
Theorem C76_ball : forall (S : Type) (rows : list S) (clust : clustering S) name m
  (c : ball_cover b64) (c' : ball_cover R) (X : list (list b64)),
  order_free clust ->
  In name ["euclidean"; "manhattan"; "chebyshev"]%string -> (Z.of_nat m <= 2 ^ 20)%Z -> Forall (moderate m) X ->
  magnitude (bc_radius c) -> opt_magnitude (bc_leaf_radius c) -> bc_radius c' = value (bc_radius c) ->
  (1 <= bc_leaf_capacity c)%nat -> tp_kind (bc_tree c) <> OtherKind ->
  (1 <= bc_leaf_capacity c')%nat -> tp_kind (bc_tree c') <> OtherKind ->
  exists d D,
    get_metric BA b_sqrt (Name name) [] = Ok (total_fn BA d) /\
    get_metric RA sqrt (Name name) [] = Ok (total_fn RA D) /\
    let computed := ball_apply b_le b_lt b_gap b_zero d c X in
    let exact := ball_apply Rleb Rltb Rgap 0 D c' (map reals X) in
    forall B, within D B X -> clear_of D (rounding_error m B) (value (bc_radius c)) X ->
      same_sets computed exact /\
      (forall g, mapper_graph rows exact clust = Ok g ->
         exists g', mapper_graph rows computed clust = Ok g' /\ same_graph g g') /\
      (forall comps, mapper_connected_components rows exact clust = Ok comps ->
         exists comps', mapper_connected_components rows computed clust = Ok comps' /\ same_partition comps comps').
Proof. intros S rows clust name m c c' X Hf. exact (named_ball_graph rows clust Hf name m c c' X). Qed.
Print Assumptions C76_ball.

(** [KNNCover]: the same if the nearest are clearly nearer than the others. *)
Theorem C76_knn : forall (S : Type) (rows : list S) (clust : clustering S) name m
  (c : knn_cover b64) (c' : knn_cover R) (X : list (list b64)),
  order_free clust ->
  In name ["euclidean"; "manhattan"; "chebyshev"]%string -> (Z.of_nat m <= 2 ^ 20)%Z -> Forall (moderate m) X ->
  magnitude (kc_leaf_radius c) -> kc_neighbors c' = kc_neighbors c -> (1 <= kc_neighbors c)%nat ->
  tp_kind (kc_tree c) <> OtherKind -> tp_kind (kc_tree c') <> OtherKind ->
  exists d D,
    get_metric BA b_sqrt (Name name) [] = Ok (total_fn BA d) /\
    get_metric RA sqrt (Name name) [] = Ok (total_fn RA D) /\
    let computed := knn_apply b_le b_lt b_gap b_zero d c X in
    let exact := knn_apply Rleb Rltb Rgap 0 D c' (map reals X) in
    forall B, within D B X -> clear_neighbours D (rounding_error m B) (kc_neighbors c) X ->
      same_sets computed exact /\
      (forall g, mapper_graph rows exact clust = Ok g ->
         exists g', mapper_graph rows computed clust = Ok g' /\ same_graph g g') /\
      (forall comps, mapper_connected_components rows exact clust = Ok comps ->
         exists comps', mapper_connected_components rows computed clust = Ok comps' /\ same_partition comps comps').
Proof. intros S rows clust name m c c' X Hf. exact (named_knn_graph rows clust Hf name m c c' X). Qed.
Print Assumptions C76_knn.

(** Both cubical algorithms, for [overlap_frac] up to 1/2: the same if no point is
    close to a border of the grid or to a face of a hypercube. *)
Theorem C76_cubical : forall (S : Type) (rows : list S) (clust : clustering S)
  (c : cubical BA) (c' : cubical RA) m (X : list (list b64)) lo hi ov E alg,
  order_free clust ->
  let n := cu_n_intervals BA c in
  (1 <= m)%nat -> (1 <= n <= 2 ^ 50)%Z -> X <> [] -> Forall (moderate m) X -> column_bounds m (map reals X) lo hi ->
  cu_overlap_frac BA c = Some ov -> finite ov ->
  (forall j, (j < m)%nat -> grid_error n (lo j) (hi j) <= E) -> E < value ov <= 1 / 2 ->
  (forall j, (j < m)%nat -> hi j - lo j <= eps64 \/ 2 * eps64 <= hi j - lo j) ->
  opt_magnitude (cu_leaf_radius BA c) -> (1 <= cu_leaf_capacity BA c)%nat -> tp_kind (cu_tree BA c) <> OtherKind ->
  cu_n_intervals RA c' = n -> cu_overlap_frac RA c' = Some (value ov) ->
  (1 <= cu_leaf_capacity RA c')%nat -> tp_kind (cu_tree RA c') <> OtherKind ->
  clear_of_grid E (1 / (2 - 2 * value ov)) m n (grid_pos n eps64 lo hi) (map reals X) ->
  let computed := cubical_apply BA (b_make 1 (-52)) alg c X in
  let exact := cubical_apply RA eps64 alg c' (map reals X) in
  same_sets computed exact /\
  (forall g, mapper_graph rows exact clust = Ok g ->
     exists g', mapper_graph rows computed clust = Ok g' /\ same_graph g g') /\
  (forall comps, mapper_connected_components rows exact clust = Ok comps ->
     exists comps', mapper_connected_components rows computed clust = Ok comps' /\ same_partition comps comps').
Proof. intros S rows clust c c' m X lo hi ov E alg Hf. exact (cubical_graph rows clust Hf c c' m X lo hi ov E alg). Qed.
Print Assumptions C76_cubical.

(** Four points of the line at 0, 1, 3 and 7 are clear of the radius 5/2, and each
    of them has two clear neighbours (with itself). *)
Definition line : list (list b64) := ints [[0]; [1]; [3]; [7]]%Z.

Lemma ints_value z : (Z.abs z < 2 ^ 53)%Z -> reals [b_ofz z] = [IZR z].
Proof. intro H. unfold reals. cbn [map]. rewrite (proj2 (b_ofz_val z H)). reflexivity. Qed.

Lemma line_distance a b : (Z.abs a < 2 ^ 53)%Z -> (Z.abs b < 2 ^ 53)%Z ->
  manhattan RA sqrt (reals [b_ofz a]) (reals [b_ofz b]) = IZR (Z.abs (a - b)).
Proof.
  intros Ha Hb. rewrite !ints_value by assumption. rewrite manhattan_total. unfold total. cbn.
  rewrite abs_IZR, minus_IZR. lra.
Qed.

Lemma small_error : 0 <= rounding_error 1 7 < 1 / 16.
Proof.
  unfold rounding_error. change (INR 1) with 1.
  assert (bpow radix2 (-536) <= bpow radix2 (-52)) by (apply bpow_le; lia).
  assert (bpow radix2 (-52) <= bpow radix2 (-12)) by (apply bpow_le; lia).
  assert (bpow radix2 (-12) = / 4096) by (simpl; reflexivity).
  pose proof (bpow_ge_0 radix2 (-536)). pose proof (bpow_ge_0 radix2 (-52)). lra.
Qed.

Example C76_met :
  let D := manhattan RA sqrt in
  Forall (moderate 1) line /\ magnitude (b_make 5 (-1)) /\ value (b_make 5 (-1)) = 5 / 2 /\ within D 7 line /\
  clear_of D (rounding_error 1 7) (5 / 2) line /\ clear_neighbours D (rounding_error 1 7) 2 line /\
  ball_apply b_le b_lt b_gap b_zero (manhattan BA b_sqrt) (mkball (b_make 5 (-1)) hier 1 None) line =
    mkgen [[0; 1]; [1; 2]; [3]]%nat None /\
  knn_apply b_le b_lt b_gap b_zero (manhattan BA b_sqrt) (mkknn 2 hier None (b_ofz 0)) line =
    mkgen [[1; 0]; [1; 2]; [2; 3]]%nat None.
Proof.
  cbv zeta.
  assert (V : finite (b_make 5 (-1)) /\ value (b_make 5 (-1)) = 5 / 2).
  { destruct (b_make_val 5 (-1)) as [F V]; [lia|lia|]. split; [exact F|]. rewrite V. simpl. lra. }
  assert (P : forall x, In x line -> exists z, In z [0; 1; 3; 7]%Z /\ x = [b_ofz z]).
  { intros x Hx. unfold line, ints in Hx. apply in_map_iff in Hx as [l [<- Hl]]. simpl in Hl.
    destruct Hl as [<-|[<-|[<-|[<-|[]]]]]; eexists; (split; [|reflexivity]); simpl; auto. }
  assert (Dz : forall a b, In a [0; 1; 3; 7]%Z -> In b [0; 1; 3; 7]%Z ->
     manhattan RA sqrt (reals [b_ofz a]) (reals [b_ofz b]) = IZR (Z.abs (a - b))).
  { intros a b Ha Hb. apply line_distance; simpl in Ha, Hb; intuition lia. }
  pose proof small_error as E.
  split; [apply ints_moderate; repeat (constructor; [split; [reflexivity|repeat (constructor; [reflexivity||lia|]); constructor]|]); constructor|].
  split; [split; [apply V|]; rewrite (proj2 V); lra|]. split; [apply V|]. split; [|split; [|split]].
  - intros x y Hx Hy. destruct (P x Hx) as [a [Ha ->]], (P y Hy) as [b [Hb ->]]. rewrite Dz by auto.
    apply IZR_le. simpl in Ha, Hb. intuition (subst; simpl; lia).
  - intros x y Hx Hy. destruct (P x Hx) as [a [Ha ->]], (P y Hy) as [b [Hb ->]]. rewrite Dz by auto.
    assert (Z.abs (a - b) <= 2 \/ 3 <= Z.abs (a - b))%Z as [H|H] by lia; apply IZR_le in H; [left|right]; lra.
  - intros x Hx. destruct (P x Hx) as [a [Ha ->]].
    assert (N : forall i z, nth_error line i = Some z -> exists b, nth_error [0; 1; 3; 7]%Z i = Some b /\ In b [0; 1; 3; 7]%Z /\ z = [b_ofz b]).
    { intros i z H. unfold line, ints in H. destruct i as [|[|[|[|i]]]]; simpl in H; try (destruct i; discriminate);
        injection H as <-; eexists; (split; [reflexivity|]); (split; [|reflexivity]); simpl; auto. }
    assert (G : forall near, NoDup near -> length near = 2%nat -> (forall i, In i near -> (i < 4)%nat) ->
      (forall i j b b', In i near -> ~ In j near -> nth_error [0; 1; 3; 7]%Z i = Some b -> nth_error [0; 1; 3; 7]%Z j = Some b' ->
         (Z.abs (a - b) + 1 <= Z.abs (a - b'))%Z) ->
      exists near, NoDup near /\ length near = Nat.min 2 (length line) /\ (forall i, In i near -> (i < length line)%nat) /\
        forall i j y z, In i near -> ~ In j near -> nth_error line i = Some y -> nth_error line j = Some z ->
          manhattan RA sqrt (reals [b_ofz a]) (reals y) + 6 * rounding_error 1 7 < manhattan RA sqrt (reals [b_ofz a]) (reals z)).
    { intros near Nd L Bn H. exists near. split; [exact Nd|]. split; [exact L|]. split; [exact Bn|].
      intros i j y z Hi Hj Ny Nz. destruct (N i y Ny) as [b [Nb [Ib ->]]]. destruct (N j z Nz) as [b' [Nb' [Ib' ->]]].
      rewrite !Dz by auto. pose proof (H i j b b' Hi Hj Nb Nb') as K. apply IZR_le in K. rewrite plus_IZR in K. lra. }
    destruct Ha as [<-|[<-|[<-|[<-|[]]]]];
      [apply (G [0; 1]%nat)|apply (G [0; 1]%nat)|apply (G [1; 2]%nat)|apply (G [2; 3]%nat)];
      try reflexivity; try (repeat constructor; simpl; intuition lia); try (simpl; intuition lia);
      intros i j b b' Hi Hj Nb Nb'; simpl in Hi, Hj;
      destruct j as [|[|[|[|j]]]]; simpl in Nb'; try (exfalso; tauto); try (destruct j; discriminate);
      injection Nb' as <-; intuition (subst; simpl in Nb; injection Nb as <-; simpl; lia).
  - split; vm_compute; reflexivity.
Qed.

(** Numbers that are clear of a grid of three cells from 0 to 9. *)
Definition spread : list (list b64) := ints [[0]; [1]; [4]; [5]; [7]; [9]]%Z.
Example C76_cubical_met :
  Forall (moderate 1) spread /\ column_bounds 1 (map reals spread) (fun _ => 0) (fun _ => 9) /\
  grid_error 3 0 9 <= 192 * eps64 /\ finite (b_make 1 (-2)) /\ value (b_make 1 (-2)) = 1 / 4 /\
  192 * eps64 < 1 / 4 /\ 2 * eps64 <= 9 - 0 /\
  clear_of_grid (192 * eps64) (1 / (2 - 2 * (1 / 4))) 1 3 (grid_pos 3 eps64 (fun _ => 0) (fun _ => 9)) (map reals spread) /\
  cubical_apply BA (b_make 1 (-52)) Standard (cells 3 (b_make 1 (-2))) spread = mkgen [[4; 5]; [2; 3]; [0; 1]]%nat None.
Proof.
  assert (E1 : 192 * eps64 <= / 1024).
  { apply Rle_trans with (bpow radix2 8 * bpow radix2 (-52)); [|rewrite <- bpow_plus; apply (bpow_le radix2 (8 + -52) (-10)); lia].
    apply Rmult_le_compat_r; [apply bpow_ge_0|]. simpl. lra. }
  assert (E0 : 0 < eps64) by apply bpow_gt_0.
  destruct (b_make_val 1 (-2)) as [F V]; [lia|lia|]. change (bpow radix2 (-2)) with (/ 4) in V.
  assert (P : forall x, In x (map reals spread) -> exists z, In z [0; 1; 4; 5; 7; 9]%Z /\ coord x 0 = IZR z).
  { intros x Hx. unfold spread, ints in Hx. rewrite map_map in Hx. apply in_map_iff in Hx as [l [<- Hl]]. simpl in Hl.
    destruct Hl as [<-|[<-|[<-|[<-|[<-|[<-|[]]]]]]]; eexists; (split; [|apply b_ofz_val; reflexivity]); simpl; auto 10. }
  split; [apply ints_moderate; repeat (constructor; [split; [reflexivity|repeat (constructor; [reflexivity||lia|]); constructor]|]); constructor|].
  split.
  { intros j Hj. assert (j = 0%nat) by lia. subst j.
    split; [exists (reals [b_ofz 0]); split; [left; reflexivity|apply (b_ofz_val 0 eq_refl)]|].
    split; [exists (reals [b_ofz 9]); split; [simpl; tauto|apply (b_ofz_val 9 eq_refl)]|].
    intros x Hx. destruct (P x Hx) as [z [Hz ->]]. split; apply IZR_le; simpl in Hz; intuition lia. }
  split. { unfold grid_error, width. rewrite Rabs_R0. destruct (Rle_dec (9 - 0) eps64); [exfalso; lra|]. unfold Rdiv. lra. }
  split; [exact F|]. split; [rewrite V; lra|]. split; [lra|]. split; [lra|]. split; [|vm_compute; reflexivity].
  intros x j Hx Hj. assert (j = 0%nat) by lia. subst j. destruct (P x Hx) as [z [Hz Ez]]. cbv zeta. rewrite Ez.
  unfold grid_pos. destruct (Rle_dec (9 - 0) eps64); [exfalso; lra|].
  replace (3 * (IZR z - 0) / (9 - 0)) with (IZR z / 3) by field.
  replace (1 / (2 - 2 * (1 / 4))) with (4 / 6) by field. split; intros k Hk.
  - replace (IZR z / 3 - IZR k) with (IZR (z - 3 * k) / 3) by (rewrite minus_IZR, mult_IZR; field).
    unfold Rdiv. rewrite Rabs_mult, <- abs_IZR, (Rabs_right (/ 3)) by lra.
    assert (H : (1 <= Z.abs (z - 3 * k))%Z) by (simpl in Hz; intuition lia). apply IZR_le in H. lra.
  - replace (IZR z / 3 - (IZR k + 1 / 2)) with (IZR (2 * z - 6 * k - 3) / 6) by (rewrite !minus_IZR, !mult_IZR; field).
    unfold Rdiv. rewrite Rabs_mult, <- abs_IZR, (Rabs_right (/ 6)) by lra.
    assert (Z.abs (2 * z - 6 * k - 3) <= 3 \/ 5 <= Z.abs (2 * z - 6 * k - 3))%Z as [H|H] by lia; apply IZR_le in H; [left|right]; lra.
Qed.

(** Close to the radius the graphs differ: the distance of these two points is
    computed one too large. *)
Theorem C76_close_refuted : exists (c : ball_cover b64) (c' : ball_cover R) (X : list (list b64)),
  Forall (moderate 1) X /\ magnitude (bc_radius c) /\ opt_magnitude (bc_leaf_radius c) /\ bc_radius c' = value (bc_radius c) /\
  (1 <= bc_leaf_capacity c)%nat /\ tp_kind (bc_tree c) <> OtherKind /\
  (1 <= bc_leaf_capacity c')%nat /\ tp_kind (bc_tree c') <> OtherKind /\
  ~ same_sets (ball_apply b_le b_lt b_gap b_zero (manhattan BA b_sqrt) c X)
      (ball_apply Rleb Rltb Rgap 0 (manhattan RA sqrt) c' (map reals X)).
Proof.
  set (X := [[b_ofz (2 ^ 52)]; [b_ofz (- (2 ^ 52) - 3)]]).
  set (r := b_make (2 ^ 51 + 1) 2).
  assert (Vr : finite r /\ value r = IZR (2 ^ 53 + 4)).
  { destruct (b_make_val (2 ^ 51 + 1) 2) as [F V]; [lia|lia|]. split; [exact F|]. unfold r. rewrite V.
    change (bpow radix2 2) with 4. rewrite <- mult_IZR. f_equal. }
  assert (M : forall z, (Z.abs z < 2 ^ 53)%Z -> small 500 (b_ofz z)).
  { intros z H. destruct (b_ofz_val z H) as [F V]. split; [exact F|]. rewrite V, <- abs_IZR.
    apply Rle_trans with (bpow radix2 53); [|apply bpow_le; lia]. change (bpow radix2 53) with (IZR (2 ^ 53)). apply IZR_le. lia. }
  assert (MX : Forall (moderate 1) X).
  { repeat (constructor; [split; [reflexivity|constructor; [apply M; lia|constructor]]|]). constructor. }
  exists (mkball r hier 1 None), (mkball (value r) hier 1 None), X.
  split; [exact MX|]. split; [split; [apply Vr|]; cbn [bc_radius]; rewrite (proj2 Vr); apply IZR_le; lia|].
  split; [exact I|]. split; [reflexivity|]. split; [simpl; lia|]. split; [discriminate|]. split; [simpl; lia|]. split; [discriminate|].
  intros [_ F].
  assert (E : ball_apply b_le b_lt b_gap b_zero (manhattan BA b_sqrt) (mkball r hier 1 None) X = mkgen [[0]; [1]]%nat None)
    by (vm_compute; reflexivity).
  rewrite E in F. cbn [yields] in F. rewrite <- ball_pulled in F.
  destruct (ball_apply_real (moderate 1) (pulled (manhattan RA sqrt)) (mkball (value r) hier 1 None) X) as [cs [_ [_ [_ [G _]]]]];
    [apply pulled_metric, manhattan_metric|exact MX|cbn [bc_radius]; rewrite (proj2 Vr); apply IZR_lt; lia|simpl; lia|discriminate|].
  cbv zeta in G. match type of F with Forall2 _ _ ?y => set (Y := y) in *; clearbody Y end.
  inversion F as [|s s' l l' P _ E1 E2]; subst Y; subst.
  inversion G as [|i s cs' l'' [x [Nx [_ [_ H]]]] _ E3 E4]; subst. cbn [bc_radius] in H.
  assert (all : forall j, (j < 2)%nat -> In j s').
  { intros j Hj. apply H. assert (In x [[b_ofz (2 ^ 52)]; [b_ofz (- (2 ^ 52) - 3)]]) as Hx by (eapply nth_error_In, Nx).
    assert (D2 : forall a b, In a [2 ^ 52; - (2 ^ 52) - 3]%Z -> In b [2 ^ 52; - (2 ^ 52) - 3]%Z ->
      pulled (manhattan RA sqrt) [b_ofz a] [b_ofz b] < value r).
    { intros a b Ha Hb. unfold pulled. rewrite line_distance by (simpl in Ha, Hb; intuition lia).
      rewrite (proj2 Vr). apply IZR_lt. simpl in Ha, Hb. intuition lia. }
    destruct j as [|[|j]]; [| |lia]; eexists; (split; [reflexivity|]);
      destruct Hx as [<-|[<-|[]]]; apply D2; simpl; auto. }
  apply Permutation_sym in P. pose proof (Permutation_in _ P (all 1%nat ltac:(lia))) as I1. simpl in I1. intuition lia.
Qed.
Print Assumptions C76_close_refuted.
