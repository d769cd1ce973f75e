(** Nearest neighbours in double precision. *)
From Coq Require Import String Reals Lra Psatz Sorted.
From Flocq Require Import Core BinarySingleNaN.
From Verif Require Import Base ModelCore ModelVPTree ModelArith ModelCover ModelMetrics ModelFloat FloatFacts SpecDouble SpecMetric
  SpecMetrics SpecCover SpecCubical SpecNet SpecWeak SpecVPTree VPProp CoverWeak CoverFacts CoreProp FloatMetric FloatAccuracy FloatCover FloatNamed
  MetricFacts MetricProp CoreLabels SpecKnnDouble.
Open Scope R_scope.

Lemma gap_upper a b : generic_format radix2 bexp a -> generic_format radix2 bexp b ->
  rgap brnd a b <= (1 + ur) * Rabs (a - b).
Proof.
  intros Ha Hb. pose proof (minus_err a b Ha Hb) as E. unfold rgap.
  pose proof (Rabs_triang_inv (brnd (a - b)) (a - b)). lra.
Qed.

Section Knn.
Variable bgap : b64 -> b64 -> b64.
Hypothesis Hgap : gap_fits bgap.
Context {T : Type}.
Variable d : T -> T -> b64.

Lemma lost_knn_far L (HL : distances_ok d L) D err X q (s : list nat) z j y :
  triangle_on D L -> computes d D err L -> incl X L -> In q L -> In z X -> In y X ->
  In j s -> nth_error X j = Some y ->
  cut_off (rd_ d) Rleb Rltb (rgap brnd) X q
    (fun g => forall i x, In i s -> nth_error X i = Some x -> Rleb (rd_ d q x) g = true) z ->
  value (d q y) <= (1 + ur) * (D q z + 4 * err).
Proof.
  intros Ht Hc HX Hq Hz Hy Hj Nj [v [w [Hv [Hw [Hs Hf]]]]].
  specialize (Hf j y Hj Nj). apply Rleb_true in Hf.
  assert (Lv := HX v Hv). assert (Lz := HX z Hz).
  pose proof (gap_upper (rd_ d q v) (rd_ d v w) (fmt_value _) (fmt_value _)) as G.
  assert (B : Rabs (rd_ d q v - rd_ d v w) <= rd_ d q z + 3 * err).
  { destruct Hs as [[H1 H2]|[H1 H2]].
    - apply Rleb_true in H1, H2. rewrite Rabs_left1 by lra.
      pose proof (computed_triangle d L D err v q z Ht Hc Lv Hq Lz). rewrite (rd_sym d L HL v q) in H by auto. lra.
    - apply Rltb_true in H1. apply Rleb_true in H2. rewrite Rabs_right by lra.
      pose proof (computed_triangle d L D err q z v Ht Hc Hq Lz Lv). rewrite (rd_sym d L HL z v) in H by auto. lra. }
  pose proof (Hc q z Hq Lz) as A. apply Rabs_le_inv in A. fold (rd_ d q y).
  pose proof (bpow_gt_0 radix2 (-53)) as U. fold ur in U.
  eapply Rle_trans; [exact Hf|]. eapply Rle_trans; [exact G|].
  apply Rmult_le_compat_l; [lra|]. unfold rd_ in *. lra.
Qed.

Lemma knn_search_gap (c : knn_cover b64) (X : list T) :
  magnitude (kc_leaf_radius c) -> distances_ok d X -> X <> [] ->
  (1 <= kc_neighbors c)%nat -> tp_kind (kc_tree c) <> OtherKind ->
  exists search, knn_fit b_le b_lt bgap b_zero d c X = Ok search /\
    forall q, distances_ok d (q :: X) -> exists ids, search q = Ok ids /\ NoDup ids /\
      length ids = Nat.min (kc_neighbors c) (length X) /\ (forall j, In j ids -> (j < length X)%nat) /\
      (forall D err, triangle_on D (q :: X) -> computes d D err (q :: X) ->
         forall j y i z, In j ids -> nth_error X j = Some y -> ~ In i ids -> nth_error X i = Some z ->
           D q y <= (1 + ur) * (D q z + 4 * err) + err).
Proof.
  intros H1 H3 Hn Hc Hk.
  destruct (knn_fit_weak (rd_ d) Rleb Rltb (rgap brnd) 0 rgap_order (knn_real c) X) as [s0 [E0 W]]; auto.
  pose proof (knn_fit_double bgap Hgap d X H3 c X H1 ltac:(intros x Hx; exact Hx)) as R.
  rewrite E0 in R. inversion R as [search s' HR E1 E2|]; subst. exists search. split; [reflexivity|].
  intros q Hq.
  pose proof (knn_fit_double bgap Hgap d (q :: X) Hq c X H1 ltac:(intros x Hx; right; exact Hx)) as R2.
  rewrite E0, <- E1 in R2. inversion R2 as [search2 s2 HR2 E5 E6|]; subst.
  assert (Eq : search q = s0 q) by (apply HR2; split; [reflexivity|left; reflexivity]).
  destruct (W q) as [ids [Eids [Nd [Hl [Hb Hnear]]]]].
  { intros v Hv. apply (rd_sym d (q :: X) Hq); [right; exact Hv|left; reflexivity]. }
  exists ids. split; [congruence|]. split; [exact Nd|]. split; [exact Hl|]. split; [exact Hb|].
  intros D err Ht Hco j y i z Hj Nj Hi Ni.
  assert (Hy : In y X) by (eapply nth_error_In, Nj). assert (Hz : In z X) by (eapply nth_error_In, Ni).
  assert (Q : In q (q :: X)) by (left; reflexivity).
  pose proof (Hco q y Q (or_intror Hy)) as Ay. pose proof (Hco q z Q (or_intror Hz)) as Az.
  assert (He : 0 <= err) by (pose proof (Rabs_pos (value (d q y) - D q y)); lra).
  apply Rabs_le_inv in Ay, Az.
  assert (P : 0 <= value (d q z)) by (apply Hq; [exact Q|right; exact Hz]).
  assert (V : value (d q y) <= (1 + ur) * (D q z + 4 * err)).
  { destruct (Hnear i z Hi Ni) as [F|F].
    - specialize (F j y Hj Nj). apply Rleb_true in F. unfold rd_ in F.
      pose proof (bpow_gt_0 radix2 (-53)) as U. fold ur in U.
      assert (0 <= ur * (D q z + 4 * err)) by (apply Rmult_le_pos; lra). lra.
    - apply (lost_knn_far (q :: X) Hq D err X q ids z j y); auto. intros x Hx. right. exact Hx. }
  lra.
Qed.
End Knn.

Definition knn_search_double {T : Type} := @knn_search_gap b_gap b_gap_fits T.

Lemma close_knn_search m d D (c : knn_cover b64) (X : list (list b64)) :
  close_to m d D -> (Z.of_nat m <= 2 ^ 20)%Z -> Forall (moderate m) X -> X <> [] ->
  magnitude (kc_leaf_radius c) -> (1 <= kc_neighbors c)%nat -> tp_kind (kc_tree c) <> OtherKind ->
  exists search, knn_fit b_le b_lt b_gap b_zero d c X = Ok search /\
    forall q, moderate m q -> exists ids, search q = Ok ids /\ neighbours_of m D (kc_neighbors c) X q ids.
Proof.
  intros [W [M Ac]] Hm HX Ne Hlr Hc Hk.
  destruct (knn_search_double d c X Hlr (well_ok m d X W HX) Ne Hc Hk) as [search [E S]].
  exists search. split; [assumption|]. intros q Hq.
  assert (HqX : Forall (moderate m) (q :: X)) by (constructor; auto).
  destruct (S q (well_ok m d _ W HqX)) as [ids [E2 [Nd [Hl [Hb H]]]]]. exists ids. split; [exact E2|].
  split; [exact Nd|]. split; [exact Hl|]. split; [exact Hb|]. intros B HB j y i z Hj Nj Hi Ni.
  assert (C := named_computes m d D B (q :: X) Ac HqX HB).
  pose proof (H _ _ (named_triangle m D _ M HqX) C j y i z Hj Nj Hi Ni) as F. cbv beta in F.
  assert (Bz : D (reals q) (reals z) <= B) by (apply HB; [left; reflexivity|right; eapply nth_error_In, Ni]).
  assert (P : 0 <= D (reals q) (reals z)).
  { assert (dd : forall x, moderate m x -> dim m (reals x)).
    { intros x [Lx _]. unfold dim, reals. rewrite map_length. exact Lx. }
    rewrite Forall_forall in HX. apply M; apply dd; [exact Hq|apply HX; eapply nth_error_In, Ni]. }
  set (e := rounding_error m B) in *. set (Dz := D (reals q) (reals z)) in *.
  assert (U : ur * 4 <= / 2). { pose proof ur_small as S0. apply Rle_trans with (/ IZR (2 ^ 53) * 4); [lra|]. simpl. lra. }
  assert (U0 : 0 < ur) by (apply bpow_gt_0).
  assert (Eb : 10 * ur * B <= e).
  { unfold e, rounding_error. rewrite <- two_u. pose proof (pos_INR m) as I.
    assert (0 <= INR m * bpow radix2 (-536)) by (apply Rmult_le_pos; [lra|apply bpow_ge_0]).
    assert (0 <= INR m * (ur * B)) by (apply Rmult_le_pos; [lra|apply Rmult_le_pos; lra]). lra. }
  assert (e0 : 0 <= e). { assert (0 <= ur * B) by (apply Rmult_le_pos; lra). lra. }
  assert (ur * Dz <= ur * B) by (apply Rmult_le_compat_l; lra).
  assert (ur * 4 * e <= / 2 * e) by (apply Rmult_le_compat_r; lra).
  assert (0 <= ur * B) by (apply Rmult_le_pos; lra).
  lra.
Qed.

Lemma close_knn_net m d D (c : knn_cover b64) (X : list (list b64)) :
  close_to m d D -> (Z.of_nat m <= 2 ^ 20)%Z -> Forall (moderate m) X -> X <> [] ->
  magnitude (kc_leaf_radius c) -> (1 <= kc_neighbors c)%nat -> tp_kind (kc_tree c) <> OtherKind ->
  (exists search, knn_fit b_le b_lt b_gap b_zero d c X = Ok search /\
     forall q, moderate m q -> exists ids, search q = Ok ids /\ neighbours_of m D (kc_neighbors c) X q ids) /\
  let net := knn_apply b_le b_lt b_gap b_zero d c X in
  stops net = None /\
  exists centers, StronglySorted lt centers /\
    Forall2 (fun i s => exists x, nth_error X i = Some x /\ neighbours_of m D (kc_neighbors c) X x s)
      centers (yields net).
Proof.
  intros C Hm HX Ne Hlr Hc Hk.
  destruct (close_knn_search m d D c X C Hm HX Ne Hlr Hc Hk) as [search [E S]].
  split; [eauto|]. cbv zeta. rewrite Forall_forall in HX. split.
  - eapply net_total; [|exact E]. intros x Hx. destruct (S x (HX x Hx)) as [ids [E2 _]]. eauto.
  - destruct (net_greedy (knn_fit b_le b_lt b_gap b_zero d c) X search E) as [cs [S1 [S2 _]]].
    exists cs. split; [exact S1|]. eapply Forall2_impl; [|exact S2].
    intros i s [[x [N Es]] _]. exists x. split; [exact N|].
    destruct (S x) as [ids [E2 A]]; [apply HX; eapply nth_error_In, N|].
    rewrite Es in E2. injection E2 as ->. exact A.
Qed.

Lemma named_knn_search name m (c : knn_cover b64) (X : list (list b64)) :
  In name three -> (Z.of_nat m <= 2 ^ 20)%Z -> Forall (moderate m) X -> X <> [] ->
  magnitude (kc_leaf_radius c) -> (1 <= kc_neighbors c)%nat -> tp_kind (kc_tree c) <> OtherKind ->
  exists d D search,
    get_metric BA b_sqrt (Name name) [] = Ok (total_fn BA d) /\
    get_metric RA sqrt (Name name) [] = Ok (total_fn RA D) /\
    knn_fit b_le b_lt b_gap b_zero d c X = Ok search /\
    (forall q, moderate m q -> exists ids, search q = Ok ids /\ neighbours_of m D (kc_neighbors c) X q ids) /\
    let net := knn_apply b_le b_lt b_gap b_zero d c X in
    stops net = None /\
    exists centers, StronglySorted lt centers /\
      Forall2 (fun i s => exists x, nth_error X i = Some x /\ neighbours_of m D (kc_neighbors c) X x s)
        centers (yields net).
Proof.
  intros Hn Hm HX Ne Hlr Hc Hk. destruct (named_double name m Hn Hm) as [d [D [G1 [G2 C]]]].
  destruct (close_knn_net m d D c X C Hm HX Ne Hlr Hc Hk) as [[search [E S]] N]. exists d, D, search. auto.
Qed.
