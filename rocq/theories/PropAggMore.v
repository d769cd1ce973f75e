(** C73: the aggregations that can be chosen. *)
From Coq Require Import String Reals Lra Lia List Sorting.Permutation.
From Verif Require Import Base BaseFacts SpecMetric ModelArith ModelDraw PyvisProp ModelPlotly ModelApp ModelOldApp ModelAgg SpecAgg AggFacts PropAgg.
Open Scope nat_scope.
Open Scope list_scope.

Lemma nan_mean_reals l : numbers l -> reals l <> [] -> nan_mean l = Ok (XFin (mean_real (reals l))).
Proof.
  intros N Ne. unfold nan_mean. rewrite (present_reals l N). destruct (reals l) as [|r rs] eqn:E; [congruence|].
  cbn [map]. rewrite <- (x_mean_reals (r :: rs)) by discriminate. reflexivity.
Qed.

(** ** C73: Mean *)

(** "Mean" of at least one number is the number with the least squares, between
    the least and the greatest, and follows shifts and factors. Without numbers it
    is NaN. *)
Theorem C73_mean : forall l, numbers l ->
  (reals l = [] -> nan_mean l = Ok XNan) /\
  (reals l <> [] -> exists m, nan_mean l = Ok (XFin m) /\ (INR (length (reals l)) * m = total (reals l))%R /\
     (forall lo hi, least (reals l) lo -> greatest (reals l) hi -> (lo <= m <= hi)%R) /\
     (forall c, (total (map (fun r => ((r - m) * (r - m))%R) (reals l)) <= total (map (fun r => ((r - c) * (r - c))%R) (reals l)))%R) /\
     (forall a b, nan_mean (map (on_numbers (fun r => (a * r + b)%R)) l) = Ok (XFin (a * m + b)))).
Proof.
  intros l N. split; [intros E; unfold nan_mean; rewrite (present_reals l N), E; reflexivity|].
  intros Ne. pose proof (len_ne _ Ne) as P. exists (mean_real (reals l)). split; [apply nan_mean_reals; assumption|].
  assert (T : (INR (length (reals l)) * mean_real (reals l) = total (reals l))%R) by (unfold mean_real; field; lra).
  split; [exact T|]. split; [|split].
  - intros lo hi [_ Lo] [_ Hi]. split.
    + assert (B : (total (map (fun r => ((-1) * r + 0)%R) (reals l)) <= INR (length (map (fun r => ((-1) * r + 0)%R) (reals l))) * - lo)%R).
      { apply total_bound. intros r I. apply in_map_iff in I. destruct I as [x [<- I]]. specialize (Lo x I). lra. }
      rewrite total_affine, map_length in B. apply (Rmult_le_reg_l (INR (length (reals l)))); lra.
    + pose proof (total_bound hi (reals l) Hi) as B. apply (Rmult_le_reg_l (INR (length (reals l)))); lra.
  - intros c. rewrite (total_about c (mean_real (reals l))).
    pose proof (Rle_0_sqr (mean_real (reals l) - c)) as Q. unfold Rsqr in Q. pose proof (Rmult_le_pos _ _ (Rlt_le _ _ P) Q). 
    replace (total (reals l)) with (INR (length (reals l)) * mean_real (reals l))%R. lra.
  - intros a b. destruct (reals_map (fun r => (a * r + b)%R) l N) as [E N'].
    rewrite nan_mean_reals; [|exact N'|rewrite E; destruct (reals l); [congruence|discriminate]].
    rewrite E, mean_affine by exact Ne. reflexivity.
Qed.
Print Assumptions C73_mean.

(** *** Mean, median and standard deviation *)
Lemma total_count (f : R -> R) (P : R -> bool) B rs : (0 <= B)%R -> (forall r, In r rs -> (0 <= f r)%R) ->
  (forall r, In r rs -> P r = false -> (B <= f r)%R) -> (INR (length rs - length (filter P rs)) * B <= total (map f rs))%R.
Proof.
  intros HB. induction rs as [|r rs IH]; intros F G; [cbn; lra|].
  assert (L : forall (X : list R), length (filter P X) <= length X).
  { induction X as [|x X IHX]; cbn; [lia|]. destruct (P x); cbn; lia. }
  assert (I1 := IH (fun x X => F x (or_intror X)) (fun x X => G x (or_intror X))). cbn [map total fold_right]. fold (total (map f rs)).
  assert (F0 := F r (or_introl eq_refl)). cbn [filter]. destruct (P r) eqn:E.
  - cbn [length]. rewrite Nat.sub_succ. lra.
  - specialize (G r (or_introl eq_refl) E). cbn [length]. rewrite Nat.sub_succ_l by apply L. rewrite S_INR. lra.
Qed.
Lemma half_count n k : k <= n -> (INR k < INR (n - 1) * (1 / 2) + 1)%R -> 0 < n -> (INR n <= 2 * INR (n - k))%R.
Proof.
  intros K H P. rewrite minus_INR in H by lia. rewrite minus_INR by lia. cbn in H.
  assert (X : 2 * k < n + 1 \/ n + 1 <= 2 * k) by lia. destruct X as [X|X].
  - assert (Y : 2 * k <= n) by lia. apply le_INR in Y. rewrite mult_INR in Y. cbn in Y. lra.
  - apply le_INR in X. rewrite plus_INR, mult_INR in X. cbn in X. lra.
Qed.
Lemma filter_len (P : R -> bool) rs : length (filter P rs) <= length rs.
Proof. induction rs as [|x X IH]; cbn; [lia|]. destruct (P x); cbn; lia. Qed.

Lemma mean_median rs q : rs <> [] -> (INR (below q rs) < INR (length rs - 1) * (1 / 2) + 1)%R ->
  (INR (above q rs) < INR (length rs - 1) * (1 / 2) + 1)%R -> (Rabs (mean_real rs - q) <= sqrt (variance rs))%R.
Proof.
  intros Ne Hb Ha. pose proof (len_ne _ Ne) as L. set (m := mean_real rs). set (d := (q - m)%R).
  assert (P : 0 < length rs) by (destruct rs; [congruence|cbn; lia]).
  assert (E : (total rs - INR (length rs) * m = 0)%R) by (unfold m, mean_real; field; lra).
  assert (V : (INR (length rs) * variance rs = total (map (fun r => ((r - m) * (r - m))%R) rs))%R).
  { unfold variance. fold m. unfold mean_real. rewrite map_length. field. lra. }
  assert (C : (INR (length rs) * (4 * (d * d)) <= 2 * total (map (fun r => ((r - (m - d)) * (r - (m - d)))%R) rs))%R).
  { destruct (Rle_dec m q) as [Hq|Hq].
    - assert (T := total_count (fun r => ((r - (m - d)) * (r - (m - d)))%R) (fun r => Rltb r q) (4 * (d * d)) rs).
      fold (below q rs) in T. assert (H := half_count (length rs) (below q rs) (filter_len _ _) Hb P).
      assert (B : (0 <= 4 * (d * d))%R) by (pose proof (Rle_0_sqr d) as S; unfold Rsqr in S; lra).
      specialize (T B (fun r _ => Rle_0_sqr _)).
      assert (T' : (INR (length rs - below q rs) * (4 * (d * d)) <= total (map (fun r => ((r - (m - d)) * (r - (m - d)))%R) rs))%R).
      { apply T. intros r _ Hr. assert (q <= r)%R by (destruct (Rltb_spec r q); [discriminate|lra]).
        assert (X : (2 * d <= r - (m - d))%R) by (unfold d; lra). assert (X0 : (0 <= 2 * d)%R) by (unfold d; lra).
        pose proof (Rmult_le_compat _ _ _ _ X0 X0 X X). lra. }
      pose proof (Rmult_le_compat_r _ _ _ B H). lra.
    - assert (T := total_count (fun r => ((r - (m - d)) * (r - (m - d)))%R) (fun r => Rltb q r) (4 * (d * d)) rs).
      fold (above q rs) in T. assert (H := half_count (length rs) (above q rs) (filter_len _ _) Ha P).
      assert (B : (0 <= 4 * (d * d))%R) by (pose proof (Rle_0_sqr d) as S; unfold Rsqr in S; lra).
      specialize (T B (fun r _ => Rle_0_sqr _)).
      assert (T' : (INR (length rs - above q rs) * (4 * (d * d)) <= total (map (fun r => ((r - (m - d)) * (r - (m - d)))%R) rs))%R).
      { apply T. intros r _ Hr. assert (r <= q)%R by (destruct (Rltb_spec q r); [discriminate|lra]).
        assert (X : (- (2 * d) <= - (r - (m - d)))%R) by (unfold d; lra). assert (X0 : (0 <= - (2 * d))%R) by (unfold d; lra).
        pose proof (Rmult_le_compat _ _ _ _ X0 X0 X X). lra. }
      pose proof (Rmult_le_compat_r _ _ _ B H). lra. }
  rewrite (total_about (m - d) m rs), E, <- V in C. replace (m - (m - d))%R with d in C by ring.
  assert (D : (d * d <= variance rs)%R) by (apply (Rmult_le_reg_l (INR (length rs))); lra).
  replace (m - q)%R with (- d)%R by (unfold d; ring). rewrite Rabs_Ropp, <- sqrt_Rsqr_abs. apply sqrt_le_1_alt. exact D.
Qed.

(** ** C73: what can be chosen *)

(** Of values among which there are numbers, "Mean" is the mean of the numbers,
    "Std" their standard deviation, "Mode" the most frequent value and "Quantile"
    of rank 1/2 a median: at most half of the numbers are below, and above it. The
    mean and the median differ by at most the standard deviation. *)
Theorem C73_chosen : forall l, numbers l -> reals l <> [] ->
  exists m s q, agg_of Mean l = Ok (XFin m) /\ agg_of Std l = Ok (XFin s) /\ agg_of (Quantile (1 / 2)) l = Ok (XFin q) /\
    m = mean_real (reals l) /\ s = sqrt (variance (reals l)) /\
    2 * below q (reals l) <= length (reals l) /\ 2 * above q (reals l) <= length (reals l) /\
    (Rabs (m - q) <= s)%R /\ (forall x, agg_of Mode l = Ok x <-> is_mode l x).
Proof.
  intros l N Ne. destruct (C73_quantile l (1 / 2) N) as [_ [_ Q]]. destruct Q as [q [Q [Hb Ha]]]; [lra|exact Ne|].
  exists (mean_real (reals l)), (sqrt (variance (reals l))), q.
  replace (1 - 1 / 2)%R with (1 / 2)%R in Ha by lra.
  split; [apply nan_mean_reals; assumption|]. split; [apply nan_std_reals; assumption|]. split; [exact Q|].
  split; [reflexivity|]. split; [reflexivity|].
  assert (P : 0 < length (reals l)) by (destruct (reals l); [congruence|cbn; lia]).
  assert (H : forall k, k <= length (reals l) -> (INR k < INR (length (reals l) - 1) * (1 / 2) + 1)%R -> 2 * k <= length (reals l)).
  { intros k K X. pose proof (half_count _ _ K X P) as Y. rewrite minus_INR in Y by lia. apply INR_le. rewrite mult_INR. cbn. lra. }
  split; [apply H; [apply filter_len|exact Hb]|]. split; [apply H; [apply filter_len|exact Ha]|].
  split; [apply mean_median; assumption|]. apply C73_mode.
Qed.
Print Assumptions C73_chosen.

Example C73_chosen_example : exists m s q,
  agg_of Mean [XFin 1; XNan; XFin 2; XFin 9] = Ok (XFin m) /\ agg_of Std [XFin 1; XNan; XFin 2; XFin 9] = Ok (XFin s) /\
  agg_of (Quantile (1 / 2)) [XFin 1; XNan; XFin 2; XFin 9] = Ok (XFin q) /\ m = 4%R /\ (Rabs (m - q) <= s)%R.
Proof.
  destruct (C73_chosen [XFin 1; XNan; XFin 2; XFin 9]) as [m [s [q [A [B [C [D [_ [_ [_ [E _]]]]]]]]]]].
  - intros x [<-|[<-|[<-|[<-|[]]]]]; eauto.
  - discriminate.
  - exists m, s, q. repeat (split; [assumption|]). split; [|exact E]. rewrite D. unfold mean_real. cbn. field.
Qed.
