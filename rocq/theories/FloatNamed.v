(** Covers on the named distances in double precision. *)
From Coq Require Import String Reals Lra Psatz Sorted.
From Flocq Require Import Core BinarySingleNaN.
From Verif Require Import Base ModelCore ModelVPTree ModelArith ModelCover ModelMetrics ModelFloat FloatFacts SpecDouble SpecMetric
  SpecMetrics SpecCover SpecCubical SpecNet VPProp FloatMetric FloatAccuracy FloatCover MetricFacts MetricProp CoreLabels.
Open Scope R_scope.

Definition three : list string := ["euclidean"; "manhattan"; "chebyshev"]%string.

Lemma rounding_ge m k D e : (k <= INR m + 5) -> 0 <= D -> 0 <= e -> e <= INR m * bpow radix2 (-536) ->
  k * bpow radix2 (-52) * D + e <= rounding_error m D.
Proof.
  intros Hk HD H0 He. unfold rounding_error. apply Rplus_le_compat; [|exact He].
  apply Rmult_le_compat_r; [exact HD|]. apply Rmult_le_compat_r; [apply bpow_ge_0|exact Hk].
Qed.

(** [d] computes the metric [D] up to rounding on vectors of [m] numbers. *)
Definition close_to (m : nat) (d : list b64 -> list b64 -> b64) (D : list R -> list R -> R) : Prop :=
  well_behaved m d /\ @metric_on (list R) (dim m) D /\
  forall x y, moderate m x -> moderate m y ->
    Rabs (value (d x y) - D (reals x) (reals y)) <= rounding_error m (D (reals x) (reals y)).

Lemma named_double name m : In name three -> (Z.of_nat m <= 2 ^ 20)%Z ->
  exists (d : list b64 -> list b64 -> b64) (D : list R -> list R -> R),
    get_metric BA b_sqrt (Name name) [] = Ok (total_fn BA d) /\
    get_metric RA sqrt (Name name) [] = Ok (total_fn RA D) /\
    well_behaved m d /\ @metric_on (list R) (dim m) D /\
    forall x y, moderate m x -> moderate m y ->
      Rabs (value (d x y) - D (reals x) (reals y)) <= rounding_error m (D (reals x) (reals y)).
Proof.
  intros Hn Hm. assert (T0 : 0 <= INR m * bpow radix2 (-536)) by (apply Rmult_le_pos; [apply pos_INR|apply bpow_ge_0]).
  assert (Hd : forall x, moderate m x -> dim m (reals x)).
  { intros x [L _]. unfold dim, reals. rewrite map_length. exact L. }
  destruct Hn as [<-|[<-|[<-|[]]]].
  - exists (euclidean BA b_sqrt), (euclidean RA sqrt). do 2 (split; [reflexivity|]).
    split; [apply euclidean_well, Hm|]. split; [apply euclidean_metric|]. intros x y Hx Hy.
    destruct (euclidean_val m x y Hm Hx Hy) as [_ V].
    replace (value (euclidean BA b_sqrt x y)) with (euc_r x y) by (symmetry; exact V).
    destruct Hx as [Lx Fx], Hy as [Ly Fy]. rewrite <- Lx. apply euc_err; [congruence|rewrite Lx; exact Hm].
  - exists (manhattan BA b_sqrt), (manhattan RA sqrt). do 2 (split; [reflexivity|]).
    split; [apply manhattan_well, Hm|]. assert (M := manhattan_metric m). split; [exact M|]. intros x y Hx Hy.
    destruct (manhattan_val m x y Hm Hx Hy) as [_ V].
    replace (value (manhattan BA b_sqrt x y)) with (man_r x y) by (symmetry; exact V).
    assert (P : 0 <= manhattan RA sqrt (reals x) (reals y)) by (apply M; auto).
    destruct Hx as [Lx Fx], Hy as [Ly Fy]. rewrite <- Lx in *.
    eapply Rle_trans; [apply man_err; [congruence|exact Hm]|].
    rewrite <- (Rplus_0_r (_ * _)). apply rounding_ge; try lra.
  - exists (chebyshev_norm BA b_sqrt), (chebyshev_norm RA sqrt). do 2 (split; [reflexivity|]).
    split; [apply chebyshev_well|]. assert (M := chebyshev_metric m). split; [exact M|]. intros x y Hx Hy.
    destruct (chebyshev_val m x y Hx Hy) as [_ V].
    replace (value (chebyshev_norm BA b_sqrt x y)) with (che_r x y) by (symmetry; exact V).
    assert (P : 0 <= chebyshev_norm RA sqrt (reals x) (reals y)) by (apply M; auto).
    eapply Rle_trans; [apply che_err|]. rewrite <- (Rplus_0_r (_ * _)).
    replace ur with (/ 2 * bpow radix2 (-52)) by (rewrite <- two_u; field).
    apply rounding_ge; try lra. pose proof (pos_INR m). lra.
Qed.

Lemma named_computes m (d : list b64 -> list b64 -> b64) (D : list R -> list R -> R) B (X : list (list b64)) :
  (forall x y, moderate m x -> moderate m y ->
     Rabs (value (d x y) - D (reals x) (reals y)) <= rounding_error m (D (reals x) (reals y))) ->
  Forall (moderate m) X -> (forall x y, In x X -> In y X -> D (reals x) (reals y) <= B) ->
  computes d (fun x y => D (reals x) (reals y)) (rounding_error m B) X.
Proof.
  intros H HX HB x y Hx Hy. rewrite Forall_forall in HX. eapply Rle_trans; [apply H; auto|].
  unfold rounding_error. apply Rplus_le_compat_r. apply Rmult_le_compat_l; [|auto].
  apply Rmult_le_pos; [pose proof (pos_INR m); lra|apply bpow_ge_0].
Qed.

Lemma named_triangle m (D : list R -> list R -> R) (X : list (list b64)) :
  @metric_on (list R) (dim m) D -> Forall (moderate m) X -> triangle_on (fun x y => D (reals x) (reals y)) X.
Proof.
  intros M HX x y z Hx Hy Hz. rewrite Forall_forall in HX.
  assert (Hd : forall x, In x X -> dim m (reals x)).
  { intros w Hw. destruct (HX w Hw) as [L _]. unfold dim, reals. rewrite map_length. exact L. }
  apply M; auto.
Qed.

Lemma close_ball_search m d D (c : ball_cover b64) (X : list (list b64)) :
  close_to m d D -> Forall (moderate m) X -> X <> [] ->
  magnitude (bc_radius c) -> opt_magnitude (bc_leaf_radius c) ->
  (1 <= bc_leaf_capacity c)%nat -> tp_kind (bc_tree c) <> OtherKind ->
  exists search, ball_fit b_le b_lt b_gap b_zero d c X = Ok search /\
    forall q, moderate m q -> exists ids, search q = Ok ids /\ ball_of m d D (value (bc_radius c)) X q ids.
Proof.
  intros [W [M Ac]] HX Ne Hr Hlr Hc Hk.
  destruct (ball_search_double d c X Hr Hlr (well_ok m d X W HX) Ne Hc Hk) as [search [E S]].
  exists search. split; [assumption|]. intros q Hq.
  assert (HqX : Forall (moderate m) (q :: X)) by (constructor; auto).
  destruct (S q (well_ok m d _ W HqX)) as [ids [E2 [Nd [H1 H2]]]]. exists ids. split; [exact E2|].
  split; [exact Nd|]. split; [exact H1|]. intros B HB j y Nj.
  assert (C := named_computes m d D B (q :: X) Ac HqX HB). split.
  - intro Hj. destruct (H1 j Hj) as [y' [Ny Hv]]. assert (y' = y) by congruence. subst y'.
    pose proof (C q y ltac:(left; reflexivity) ltac:(right; eapply nth_error_In, Nj)) as Cy. cbv beta in Cy.
    apply Rabs_le_inv in Cy. lra.
  - intro Hd. apply (H2 _ _ (named_triangle m D _ M HqX) C j y Nj Hd).
Qed.

Lemma close_ball_cover m d D (c : ball_cover b64) (X : list (list b64)) :
  close_to m d D -> Forall (moderate m) X ->
  finite (bc_radius c) -> 0 < value (bc_radius c) -> opt_magnitude (bc_leaf_radius c) ->
  (1 <= bc_leaf_capacity c)%nat -> tp_kind (bc_tree c) <> OtherKind ->
  exists centers,
    let net := ball_apply b_le b_lt b_gap b_zero d c X in
    stops net = None /\ covers (length X) (yields net) /\ StronglySorted lt centers /\
    Forall2 (fun i s => exists x, nth_error X i = Some x /\ In i s /\ ball_of m d D (value (bc_radius c)) X x s)
      centers (yields net) /\
    (forall k k' i s, (k' < k)%nat -> nth_error centers k = Some i -> nth_error (yields net) k' = Some s -> ~ In i s).
Proof.
  intros [W [M Ac]] HX Fr Hr Hlr Hc Hk.
  destruct (ball_cover_double d c X) as [centers [S [Cv [So [F Sep]]]]]; auto.
  { split; [exact Fr|lra]. }
  { apply (well_ok m d X W HX). }
  { intros x Hx. rewrite Forall_forall in HX. rewrite (proj2 W x); auto. }
  exists centers. repeat (split; [assumption|]). split; [|exact Sep].
  eapply CoreLabels.Forall2_impl; [|exact F]. intros i s [x [Nx [Hi [Nd [H1 H2]]]]].
  exists x. split; [exact Nx|]. split; [exact Hi|]. split; [exact Nd|]. split; [exact H1|].
  intros B HB j y Nj.
  assert (C := named_computes m d D B X Ac HX (fun a b Ha Hb => HB a b (or_intror Ha) (or_intror Hb))). split.
  - intro Hj. destruct (H1 j Hj) as [y' [Ny Hv]]. assert (y' = y) by congruence. subst y'.
    pose proof (C x y ltac:(eapply nth_error_In, Nx) ltac:(eapply nth_error_In, Nj)) as Cy. cbv beta in Cy.
    apply Rabs_le_inv in Cy. lra.
  - intro Hd. apply (H2 _ _ (named_triangle m D _ M HX) C j y Nj Hd).
Qed.

Lemma close_knn_cover m d D (c : knn_cover b64) (X : list (list b64)) :
  close_to m d D -> Forall (moderate m) X ->
  magnitude (kc_leaf_radius c) -> (1 <= kc_neighbors c)%nat -> tp_kind (kc_tree c) <> OtherKind ->
  (forall i x, nth_error X i = Some x -> forall l, NoDup l ->
     (forall j, In j l -> j <> i /\ exists y, nth_error X j = Some y /\ value (d x y) = 0) ->
     (length l < kc_neighbors c)%nat) ->
  exists centers,
    let net := knn_apply b_le b_lt b_gap b_zero d c X in
    stops net = None /\ covers (length X) (yields net) /\ StronglySorted lt centers /\
    Forall2 (fun i s => exists x, nth_error X i = Some x /\ In i s /\ NoDup s /\
        length s = Nat.min (kc_neighbors c) (length X) /\ forall j, In j s -> (j < length X)%nat)
      centers (yields net).
Proof.
  intros [W [M Ac]] HX Hlr Hc Hk Hf. rewrite Forall_forall in HX.
  destruct (knn_cover_double d c X) as [centers [S [Cv [So [F Sep]]]]]; auto.
  { apply (well_ok m d X W). apply Forall_forall, HX. }
  { intros i x Nx l Nd Hl. apply (Hf i x Nx l Nd). intros j Hj. destruct (Hl j Hj) as [Ne [y [Ny Hy]]].
    split; [exact Ne|]. exists y. split; [exact Ny|]. assert (Hx : In x X) by (eapply nth_error_In, Nx).
    rewrite (proj2 W x) in Hy by auto. destruct (proj1 W x y) as [[_ P] _]; auto; [apply HX; eapply nth_error_In, Ny|]. lra. }
  exists centers. auto.
Qed.

Lemma named_ball_search name m (c : ball_cover b64) (X : list (list b64)) :
  In name three -> (Z.of_nat m <= 2 ^ 20)%Z -> Forall (moderate m) X -> X <> [] ->
  magnitude (bc_radius c) -> opt_magnitude (bc_leaf_radius c) ->
  (1 <= bc_leaf_capacity c)%nat -> tp_kind (bc_tree c) <> OtherKind ->
  exists d D search,
    get_metric BA b_sqrt (Name name) [] = Ok (total_fn BA d) /\
    get_metric RA sqrt (Name name) [] = Ok (total_fn RA D) /\
    ball_fit b_le b_lt b_gap b_zero d c X = Ok search /\
    forall q, moderate m q -> exists ids, search q = Ok ids /\ ball_of m d D (value (bc_radius c)) X q ids.
Proof.
  intros Hn Hm HX Ne Hr Hlr Hc Hk. destruct (named_double name m Hn Hm) as [d [D [G1 [G2 C]]]].
  destruct (close_ball_search m d D c X C HX Ne Hr Hlr Hc Hk) as [search S]. exists d, D, search. auto.
Qed.

Lemma named_ball_cover name m (c : ball_cover b64) (X : list (list b64)) :
  In name three -> (Z.of_nat m <= 2 ^ 20)%Z -> Forall (moderate m) X ->
  finite (bc_radius c) -> 0 < value (bc_radius c) -> opt_magnitude (bc_leaf_radius c) ->
  (1 <= bc_leaf_capacity c)%nat -> tp_kind (bc_tree c) <> OtherKind ->
  exists d D centers,
    get_metric BA b_sqrt (Name name) [] = Ok (total_fn BA d) /\
    get_metric RA sqrt (Name name) [] = Ok (total_fn RA D) /\
    let net := ball_apply b_le b_lt b_gap b_zero d c X in
    stops net = None /\ covers (length X) (yields net) /\ StronglySorted lt centers /\
    Forall2 (fun i s => exists x, nth_error X i = Some x /\ In i s /\ ball_of m d D (value (bc_radius c)) X x s)
      centers (yields net) /\
    (forall k k' i s, (k' < k)%nat -> nth_error centers k = Some i -> nth_error (yields net) k' = Some s -> ~ In i s).
Proof.
  intros Hn Hm HX Fr Hr Hlr Hc Hk. destruct (named_double name m Hn Hm) as [d [D [G1 [G2 C]]]].
  destruct (close_ball_cover m d D c X C HX Fr Hr Hlr Hc Hk) as [centers S]. exists d, D, centers. auto.
Qed.

Lemma named_knn_cover name m (c : knn_cover b64) (X : list (list b64)) :
  In name three -> (Z.of_nat m <= 2 ^ 20)%Z -> Forall (moderate m) X ->
  magnitude (kc_leaf_radius c) -> (1 <= kc_neighbors c)%nat -> tp_kind (kc_tree c) <> OtherKind ->
  exists d, get_metric BA b_sqrt (Name name) [] = Ok (total_fn BA d) /\
  ((forall i x, nth_error X i = Some x -> forall l, NoDup l ->
     (forall j, In j l -> j <> i /\ exists y, nth_error X j = Some y /\ value (d x y) = 0) ->
     (length l < kc_neighbors c)%nat) ->
  exists centers,
    let net := knn_apply b_le b_lt b_gap b_zero d c X in
    stops net = None /\ covers (length X) (yields net) /\ StronglySorted lt centers /\
    Forall2 (fun i s => exists x, nth_error X i = Some x /\ In i s /\ NoDup s /\
        length s = Nat.min (kc_neighbors c) (length X) /\ forall j, In j s -> (j < length X)%nat)
      centers (yields net)).
Proof.
  intros Hn Hm HX Hlr Hc Hk. destruct (named_double name m Hn Hm) as [d [D [G1 [G2 C]]]].
  exists d. split; [exact G1|]. intro Hf. exact (close_knn_cover m d D c X C HX Hlr Hc Hk Hf).
Qed.

