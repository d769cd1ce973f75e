(** The error of [cosine] for all orders of summation. *)
From Coq Require Import Reals Lra Psatz Permutation.
From Flocq Require Import Core BinarySingleNaN.
From Verif Require Import Base ModelArith ModelMetrics ModelFloat ModelFastmath ModelFastCosine FloatFacts SpecDouble SpecMetric SpecMetrics
  SpecCosine VPProp FloatMetric MetricFacts MetricProp FloatAccuracy FloatGrid FastmathProp FloatCosine.
Open Scope R_scope.

Fixpoint r_dot (p : plan) (r s : nat -> R) : R :=
  match p with
  | Nothing => 0
  | Item i => brnd (r i * s i)
  | Join p q => brnd (r_dot p r s + r_dot q r s)
  | Fused p i => brnd (r i * s i + r_dot p r s)
  end.
Definition exact_dot (f : R -> R) (p : plan) (r s : nat -> R) : R := plain (map (fun i => f (r i * s i)) (items p)).

Lemma fmt_r_dot p r s : fmt (r_dot p r s).
Proof. destruct p; simpl; auto using fmt_0, fmt_brnd. Qed.
Lemma size_0_dot p r s : size p = 0%nat -> r_dot p r s = 0.
Proof.
  induction p as [|i|p IHp q IHq|p IHp i]; intro H; try discriminate; [reflexivity|].
  rewrite size_join in H. simpl. rewrite IHp, IHq by lia. rewrite Rplus_0_l. apply brnd_0.
Qed.
Lemma size_0_exact_dot f p r s : size p = 0%nat -> exact_dot f p r s = 0.
Proof. unfold size, exact_dot. intro H. apply length_zero_iff_nil in H. rewrite H. reflexivity. Qed.
Lemma exact_dot_join f p q r s : exact_dot f (Join p q) r s = exact_dot f p r s + exact_dot f q r s.
Proof. unfold exact_dot. simpl. rewrite map_app. apply plain_app. Qed.
Lemma exact_abs p r s : Rabs (exact_dot (fun z => z) p r s) <= exact_dot Rabs p r s.
Proof. unfold exact_dot. eapply Rle_trans; [apply plain_abs_le|]. rewrite map_map. lra. Qed.

Lemma sum_products_val p x y : Forall (small 300) x -> Forall (small 300) y -> (Z.of_nat (size p) <= 2 ^ 20)%Z ->
  finite (sum_products p x y) /\ value (sum_products p x y) = r_dot p (rat x) (rat y) /\
  Rabs (value (sum_products p x y)) <= INR (size p) * bpow radix2 600.
Proof.
  intros Hx Hy.
  assert (round : forall n z, (Z.of_nat n <= 2 ^ 20)%Z -> Rabs z <= INR n * bpow radix2 600 ->
    Rabs (brnd z) <= INR n * bpow radix2 600 /\ Rabs (brnd z) < ovf).
  { intros n z Hn Hz. assert (B : Rabs (brnd z) <= INR n * bpow radix2 600).
    { rewrite INR_IZR_INZ in *. rewrite <- brnd_abs, <- (brnd_int_pow (Z.of_nat n) 600) by lia. apply brnd_le, Hz. }
    split; [exact B|]. eapply Rle_lt_trans; [exact B|]. apply Rle_lt_trans with (bpow radix2 20 * bpow radix2 600).
    - apply Rmult_le_compat_r; [apply bpow_ge_0|]. rewrite INR_IZR_INZ. change (bpow radix2 20) with (IZR (2 ^ 20)). apply IZR_le, Hn.
    - rewrite <- bpow_plus. apply bpow_lt. lia. }
  induction p as [|i|p IHp q IHq|p IHp i]; intro Hs.
  - simpl. change (value b_zero) with 0. unfold size. simpl. rewrite Rabs_R0. repeat split; lra.
  - destruct (small_mult 300 (at_ x i) (at_ y i)) as [[F B] V]; try lia; try (apply at_small; assumption). simpl.
    split; [exact F|]. split; [exact V|]. unfold size. simpl. rewrite Rmult_1_l. exact B.
  - rewrite size_join in *. destruct IHp as [F1 [V1 B1]]; [lia|]. destruct IHq as [F2 [V2 B2]]; [lia|].
    destruct (round (size p + size q)%nat (value (sum_products p x y) + value (sum_products q x y)) Hs) as [B O].
    { rewrite plus_INR. eapply Rle_trans; [apply Rabs_triang|]. lra. }
    destruct (b_plus_val _ _ F1 F2 O) as [V F]. simpl.
    split; [exact F|]. split; [|unfold value in *; rewrite V; exact B].
    rewrite <- V1, <- V2. exact V.
  - rewrite size_fused in *. destruct IHp as [F1 [V1 B1]]; [lia|]. destruct (at_small 300 x i Hx) as [F0 B0], (at_small 300 y i Hy) as [F0' B0'].
    assert (Q : Rabs (value (at_ x i) * value (at_ y i)) <= bpow radix2 600).
    { rewrite Rabs_mult. change 600%Z with (300 + 300)%Z. rewrite bpow_plus. apply Rmult_le_compat; auto using Rabs_pos. }
    destruct (round (S (size p)) (value (at_ x i) * value (at_ y i) + value (sum_products p x y)) Hs) as [B O].
    { rewrite S_INR. eapply Rle_trans; [apply Rabs_triang|]. lra. }
    destruct (b_fma_val _ _ _ F0 F0' F1 O) as [V F]. simpl.
    split; [exact F|]. split; [|rewrite V; exact B].
    rewrite V, V1. reflexivity.
Qed.

Lemma sum_dot_err p r s :
  Rabs (r_dot p r s - exact_dot (fun z => z) p r s) <=
  ((1 + ur) ^ size p - 1) * exact_dot Rabs p r s + INR (size p) * tiny * (1 + ur) ^ size p.
Proof.
  assert (U := ur_pos). assert (TY := tiny_pos).
  (* one rounding of [z], known up to [k] steps *)
  assert (step : forall z v T A k t, Rabs (v - z) <= ur * Rabs z + t -> 0 <= t -> Rabs T <= A ->
    forall j, Rabs (z - T) <= ((1 + ur) ^ j - 1) * A + INR k * tiny * (1 + ur) ^ j ->
    Rabs (v - T) <= ((1 + ur) ^ S j - 1) * A + (INR k * tiny + t) * (1 + ur) ^ S j).
  { intros z v T A k t E Ht HT j H. rewrite <- tech_pow_Rmult. assert (W := up_pos j). set (w := (1 + ur) ^ j) in *. assert (Hk := pos_INR k).
    assert (HA : 0 <= A) by (pose proof (Rabs_pos T); lra).
    assert (Z1 : Rabs z <= Rabs (z - T) + Rabs T) by (replace z with ((z - T) + T) at 1 by ring; apply Rabs_triang).
    assert (V1 : Rabs (v - T) <= Rabs (v - z) + Rabs (z - T)) by (replace (v - T) with ((v - z) + (z - T)) by ring; apply Rabs_triang).
    set (e := (w - 1) * A + INR k * tiny * w) in *.
    assert (X : Rabs (v - T) <= (1 + ur) * e + ur * A + t).
    { assert (ur * Rabs z <= ur * (e + A)) by (apply Rmult_le_compat_l; lra). lra. }
    eapply Rle_trans; [exact X|]. unfold e.
    assert (t <= t * ((1 + ur) * w)) by (assert (1 <= (1 + ur) * w) by nra; nra).
    replace (((1 + ur) * w - 1) * A + (INR k * tiny + t) * ((1 + ur) * w)) with ((1 + ur) * ((w - 1) * A + INR k * tiny * w) + ur * A + t * ((1 + ur) * w)) by ring. lra. }
  induction p as [|i|p IHp q IHq|p IHp i].
  - unfold exact_dot, plain, size. simpl. rewrite Rminus_0_r, Rabs_R0. lra.
  - unfold exact_dot, plain, size. simpl map. simpl fold_right. rewrite !Rplus_0_r.
    pose proof (step (r i * s i) (brnd (r i * s i)) (r i * s i) (Rabs (r i * s i)) 0%nat tiny (any_err _) ltac:(lra) ltac:(lra) 0%nat) as W.
    simpl in W. rewrite Rminus_eq_0, Rabs_R0, !Rmult_0_l, !Rplus_0_l in W. simpl. rewrite Rmult_1_l. apply W. lra.
  - rewrite size_join, !exact_dot_join. simpl r_dot.
    destruct (Nat.eq_dec (size p) 0) as [E1|E1]; [|destruct (Nat.eq_dec (size q) 0) as [E2|E2]].
    + rewrite (size_0_dot p r s E1), !(size_0_exact_dot _ p r s E1), E1, !Rplus_0_l, brnd_fmt by (apply fmt_r_dot). exact IHq.
    + rewrite (size_0_dot q r s E2), !(size_0_exact_dot _ q r s E2), E2, !Rplus_0_r, brnd_fmt by (apply fmt_r_dot). rewrite Nat.add_0_r. exact IHp.
    + set (k := (size p + size q)%nat) in *. assert (Hk : k = S (Nat.pred k)) by lia.
      pose proof (exact_abs p r s) as S1. pose proof (exact_abs q r s) as S2.
      set (T1 := exact_dot (fun z => z) p r s) in *. set (T2 := exact_dot (fun z => z) q r s) in *.
      set (A1 := exact_dot Rabs p r s) in *. set (A2 := exact_dot Rabs q r s) in *.
      pose proof (plus_err _ _ (fmt_r_dot p r s) (fmt_r_dot q r s)) as E.
      pose proof (step (r_dot p r s + r_dot q r s) (brnd (r_dot p r s + r_dot q r s)) (T1 + T2) (A1 + A2) k 0 ltac:(lra) ltac:(lra)) as W.
      specialize (W ltac:(eapply Rle_trans; [apply Rabs_triang|lra]) (Nat.pred k)). rewrite <- Hk, Rplus_0_r in W. apply W.
      replace (r_dot p r s + r_dot q r s - (T1 + T2)) with ((r_dot p r s - T1) + (r_dot q r s - T2)) by ring.
      eapply Rle_trans; [apply Rabs_triang|].
      assert (M1 := up_mono (size p) (Nat.pred k) ltac:(lia)). assert (M2 := up_mono (size q) (Nat.pred k) ltac:(lia)).
      assert (K1 : INR k = INR (size p) + INR (size q)) by (unfold k; apply plus_INR). rewrite K1.
      pose proof (Rabs_pos T1). pose proof (Rabs_pos T2). pose proof (pos_INR (size p)). pose proof (pos_INR (size q)).
      assert (0 <= INR (size p) * tiny) by nra. assert (0 <= INR (size q) * tiny) by nra.
      set (w := (1 + ur) ^ Nat.pred k) in *.
      pose proof (Rmult_le_compat_r A1 _ _ ltac:(lra) M1). pose proof (Rmult_le_compat_r A2 _ _ ltac:(lra) M2).
      pose proof (Rmult_le_compat_l (INR (size p) * tiny) _ _ ltac:(lra) M1). pose proof (Rmult_le_compat_l (INR (size q) * tiny) _ _ ltac:(lra) M2). lra.
  - rewrite size_fused. simpl r_dot. unfold exact_dot at 1 2. simpl map. unfold plain. simpl fold_right. fold (plain (map (fun i => r i * s i) (items p))) (plain (map (fun i => Rabs (r i * s i)) (items p))).
    fold (exact_dot (fun z => z) p r s) (exact_dot Rabs p r s). pose proof (exact_abs p r s) as S1.
    set (T1 := exact_dot (fun z => z) p r s) in *. set (A1 := exact_dot Rabs p r s) in *. rewrite S_INR.
    pose proof (step (r i * s i + r_dot p r s) (brnd (r i * s i + r_dot p r s)) (r i * s i + T1) (Rabs (r i * s i) + A1) (size p) tiny (any_err _) ltac:(lra)) as W.
    replace ((INR (size p) + 1) * tiny) with (INR (size p) * tiny + tiny) by ring. apply W.
    + eapply Rle_trans; [apply Rabs_triang|lra].
    + replace (r i * s i + r_dot p r s - (r i * s i + T1)) with (r_dot p r s - T1) by ring. eapply Rle_trans; [exact IHp|].
      assert (1 <= (1 + ur) ^ size p) by apply up_pos. pose proof (Rabs_pos (r i * s i)). nra.
Qed.

Lemma nth_pairs (x y : list b64) : length x = length y ->
  map (fun i => rat x i * rat y i) (seq 0 (length x)) = map2 Rmult (reals x) (reals y).
Proof.
  unfold rat, at_, reals. revert y. induction x as [|a x IH]; intros [|b y] L; try discriminate; [reflexivity|].
  simpl. f_equal. rewrite <- seq_shift, map_map. apply IH. simpl in L. lia.
Qed.
Lemma plan_dot m p x y : plan_for m p -> length x = m -> length y = m ->
  exact_dot (fun z => z) p (rat x) (rat y) = total Rmult (reals x) (reals y) /\
  exact_dot Rabs p (rat x) (rat y) = plain (map Rabs (map2 Rmult (reals x) (reals y))).
Proof.
  intros H Lx Ly. assert (E := nth_pairs x y ltac:(congruence)). rewrite Lx in E. split.
  - rewrite <- plain_dot, <- E. apply plain_perm. exact (Permutation_map (fun i => rat x i * rat y i) H).
  - rewrite <- E, map_map. apply plain_perm. exact (Permutation_map (fun i => Rabs (rat x i * rat y i)) H).
Qed.

Lemma fast_norm m p x : (Z.of_nat m <= 2 ^ 20)%Z -> plan_for m p -> fair m x -> norm_close m (b_sqrt (sum_squares p x)) (nrm (reals x)).
Proof.
  intros Hm Hp Fx. destruct (fair_norm m x Hm Fx) as [B1 [B2 _]]. destruct Fx as [L [HS _]]. assert (Sz := plan_size m p Hp).
  destruct (sum_squares_val p x) as [F [V B]].
  { eapply Forall_impl; [|exact HS]. intros z [Fz Lz]. split; [exact Fz|]. eapply Rle_trans; [exact Lz|]. apply bpow_le. lia. }
  { rewrite Sz. exact Hm. }
  destruct (sqrt_val (sum_squares p x)) as [Mg E]; [split; [exact F|apply B]|].
  split; [exact B1|]. split; [exact B2|]. split; [exact Mg|].
  pose proof (sum_sq_err p (rat x)) as Er. rewrite Sz, (plan_exact (fun a => a * a) m p x Hp L) in Er. rewrite V in E.
  assert (NN : 0 <= r_sq p (rat x)) by (rewrite <- V; apply B). rewrite E.
  set (N := nrm (reals x)) in *. pose proof (nrm_sq (reals x)) as NS. rewrite <- sum_sq in NS. fold N in NS. fold (reals x) in Er. fold (plain (map (fun a => a * a) (reals x))) in NS. rewrite <- NS in Er.
  assert (PN : 0 < N) by (eapply Rlt_le_trans; [apply bpow_gt_0|exact B1]).
  pose proof (length_bound m Hm) as LB. assert (S33 : bpow radix2 (-33) <= / 64) by (apply (bpow_le radix2 (-33) (-6)); lia).
  apply abs_ratio; [exact PN|]. eapply Rle_trans.
  - apply (root_err (r_sq p (rat x)) N m); auto using fmt_r_sq; [lra|lra|].
    pose proof (pow_up m ltac:(lra)) as PU. pose proof (pow_down m) as PD.
    set (S := N * N) in *. assert (HS' : 0 <= S) by (unfold S; nra). set (W := r_sq p _) in *.
    assert (U := ur_pos). assert (TY := tiny_pos).
    set (n := INR m) in *. assert (Hn : 0 <= n) by apply pos_INR. assert (Hnu : 0 <= n * ur <= / 64) by (split; [nra|lra]).
    assert (HE : 0 <= n * tiny) by nra.
    assert (E1 : (1 - n * ur) * S - n * tiny <= W) by (eapply Rle_trans; [|apply Er]; apply Rplus_le_compat_r, Rmult_le_compat_r; lra).
    assert (E2 : W <= (1 + 2 * n * ur) * (S + n * tiny)) by (eapply Rle_trans; [apply Er|]; apply Rmult_le_compat_r; lra).
    assert (HuS : 0 <= ur * S) by (apply Rmult_le_pos; lra).
    assert (Q2 : n * ur * (n * tiny) <= / 64 * (n * tiny)) by (apply Rmult_le_compat_r; lra).
    assert (0 <= n * ur * S) by nra. apply Rabs_le. split; nra.
  - assert (T : INR m * bpow radix2 (-536) <= bpow radix2 (-52) * N).
    { apply Rle_trans with (bpow radix2 20 * bpow radix2 (-536)).
      - apply Rmult_le_compat_r; [apply bpow_ge_0|]. rewrite INR_IZR_INZ. change (bpow radix2 20) with (IZR (2 ^ 20)). apply IZR_le, Hm.
      - rewrite <- bpow_plus. apply Rle_trans with (bpow radix2 (-52) * bpow radix2 (-300)); [rewrite <- bpow_plus; apply bpow_le; lia|].
        apply Rmult_le_compat_l; [apply bpow_ge_0|exact B1]. }
    replace (bpow radix2 (-52)) with (2 * ur) in * by (unfold ur; change 2 with (bpow radix2 1); rewrite <- bpow_plus; reflexivity). lra.
Qed.

Lemma fast_cosine_accuracy m p q r x y D : (Z.of_nat m <= 2 ^ 20)%Z -> plan_for m p -> plan_for m q -> plan_for m r ->
  fair m x -> fair m y -> is_cosine (reals x) (reals y) D ->
  exists d, fast_cosine p q r x y = Ok d /\
    ((d = B754_nan /\ D * D <= (6 * INR m + 34) * bpow radix2 (-52)) \/
     (magnitude d /\ Rabs (value d * value d - D * D) <= (6 * INR m + 40) * bpow radix2 (-52))).
Proof.
  intros Hm Hp Hq Hr Fx Fy HD. change (fast_cosine p q r x y) with (finish (sum_products p x y) (b_sqrt (sum_squares q x)) (b_sqrt (sum_squares r y))).
  apply (finish_accuracy m _ _ _ (reals x) (reals y)); auto using fast_norm.
  assert (Sz := plan_size m p Hp). assert (Lx := proj1 Fx). assert (Ly := proj1 Fy).
  destruct (sum_products_val p x y (proj1 (proj2 Fx)) (proj1 (proj2 Fy))) as [F [V _]]; [rewrite Sz; exact Hm|].
  apply fair_dot; auto. cbv zeta. rewrite V. destruct (plan_dot m p x y Hp Lx Ly) as [E1 E2]. rewrite <- E1, <- E2.
  eapply Rle_trans; [apply sum_dot_err|]. rewrite Sz.
  pose proof (length_bound m Hm) as LB. assert (S33 : bpow radix2 (-33) <= / 64) by (apply (bpow_le radix2 (-33) (-6)); lia).
  pose proof (pow_up m ltac:(lra)) as PU. assert (U := ur_pos). assert (TY := tiny_pos). assert (Hn := pos_INR m). set (n := INR m) in *.
  assert (HA : 0 <= exact_dot Rabs p (rat x) (rat y)) by (rewrite E2; apply plain_abs_nonneg).
  set (A := exact_dot Rabs p (rat x) (rat y)) in *. set (w := (1 + ur) ^ m) in *. assert (W1 : 1 <= w) by apply up_pos.
  assert (HE : 0 <= n * tiny) by nra. apply Rplus_le_compat.
  - apply Rmult_le_compat_r; [exact HA|lra].
  - replace (2 * n * tiny) with (n * tiny * 2) by ring. apply Rmult_le_compat_l; lra.
Qed.
