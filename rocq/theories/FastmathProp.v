(** The distances in double precision, summed in any order. *)
From Coq Require Import String Permutation Reals Lra Psatz.
From Flocq Require Import Core BinarySingleNaN Relative Plus_error Div_sqrt_error.
From Verif Require Import Base ModelArith ModelMetrics ModelFloat FloatFacts SpecDouble SpecMetric SpecMetrics SpecCubical VPProp
  FloatMetric FloatAccuracy FloatNamed MetricFacts MetricProp ModelFastmath.
Open Scope R_scope.

Lemma b_fma_val a b c : finite a -> finite b -> finite c -> Rabs (brnd (value a * value b + value c)) < ovf ->
  value (b_fma a b c) = brnd (value a * value b + value c) /\ finite (b_fma a b c).
Proof.
  intros Fa Fb Fc H. pose proof (Bfma_correct 53 1024 prec53 emax1024 mode_NE a b c Fa Fb Fc) as C. cbv zeta in C.
  rewrite Rlt_bool_true in C by exact H. destruct C as [V [F _]]. split; [exact V|exact F].
Qed.

(** The plans over rounded reals; [r i] is the difference in coordinate [i]. *)
Fixpoint r_abs (p : plan) (r : nat -> R) : R :=
  match p with
  | Nothing => 0
  | Item i => Rabs (r i)
  | Join p q => brnd (r_abs p r + r_abs q r)
  | Fused p i => brnd (r_abs p r + Rabs (r i))
  end.
Fixpoint r_sq (p : plan) (r : nat -> R) : R :=
  match p with
  | Nothing => 0
  | Item i => brnd (r i * r i)
  | Join p q => brnd (r_sq p r + r_sq q r)
  | Fused p i => brnd (r i * r i + r_sq p r)
  end.
Fixpoint r_max (p : plan) (r : nat -> R) : R :=
  match p with
  | Nothing => 0
  | Item i => Rabs (r i)
  | Join p q => Rmax (r_max p r) (r_max q r)
  | Fused p i => Rmax (r_max p r) (Rabs (r i))
  end.
Definition rat (v : list b64) (i : nat) : R := value (at_ v i).
(** The exact sum of the terms. *)
Definition exact_sum (f : R -> R) (p : plan) (r : nat -> R) : R := plain (map (fun i => f (r i)) (items p)).

Lemma plain_app l m : plain (l ++ m) = plain l + plain m.
Proof. unfold plain. induction l as [|a l IH]; simpl; [lra|]. rewrite IH. ring. Qed.
Lemma plain_perm l m : Permutation l m -> plain l = plain m.
Proof. unfold plain. intro H. induction H; simpl; lra. Qed.
Lemma exact_join f p q r : exact_sum f (Join p q) r = exact_sum f p r + exact_sum f q r.
Proof. unfold exact_sum. simpl. rewrite map_app. apply plain_app. Qed.
Lemma exact_fused f p i r : exact_sum f (Fused p i) r = f (r i) + exact_sum f p r.
Proof. reflexivity. Qed.
Lemma exact_nonneg f p r : (forall a, 0 <= f a) -> 0 <= exact_sum f p r.
Proof. intro H. apply plain_nonneg. apply Forall_forall. intros z Hz. apply in_map_iff in Hz. destruct Hz as [i [<- _]]. apply H. Qed.

Definition size (p : plan) : nat := length (items p).
Lemma size_join p q : size (Join p q) = (size p + size q)%nat.
Proof. unfold size. simpl. apply app_length. Qed.
Lemma size_fused p i : size (Fused p i) = S (size p).
Proof. reflexivity. Qed.

Lemma at_small k v i : Forall (small k) v -> small k (at_ v i).
Proof.
  intro H. unfold at_. destruct (nth_in_or_default i v b_zero) as [I|E].
  - rewrite Forall_forall in H. apply H, I.
  - rewrite E. split; [reflexivity|]. change (value b_zero) with 0. rewrite Rabs_R0. apply bpow_ge_0.
Qed.

(** A sum of at most [n] terms of size at most [2 ^ k] stays finite. *)
Lemma bounded_round n k s : (-1074 <= k <= 1003)%Z -> (Z.of_nat n <= 2 ^ 20)%Z -> 0 <= s <= INR n * bpow radix2 k ->
  0 <= brnd s <= INR n * bpow radix2 k /\ Rabs (brnd s) < ovf.
Proof.
  intros Hk Hn Hs. rewrite INR_IZR_INZ in *.
  assert (B : 0 <= brnd s <= IZR (Z.of_nat n) * bpow radix2 k).
  { split; [apply brnd_nonneg; lra|]. rewrite <- (brnd_int_pow (Z.of_nat n) k) by lia. apply brnd_le. lra. }
  split; [exact B|]. rewrite Rabs_right by lra. eapply Rle_lt_trans; [apply B|].
  apply Rle_lt_trans with (bpow radix2 20 * bpow radix2 k).
  - apply Rmult_le_compat_r; [apply bpow_ge_0|]. change (bpow radix2 20) with (IZR (2 ^ 20)). apply IZR_le, Hn.
  - rewrite <- bpow_plus. apply bpow_lt. lia.
Qed.

Lemma b_abs_value a : finite a -> finite (b_abs a) /\ value (b_abs a) = Rabs (value a).
Proof. intro F. destruct (b_abs_val a) as [V Fa]. split; [|exact V]. unfold finite. etransitivity; [exact Fa|exact F]. Qed.

Lemma sum_abs_val p v : Forall (small 501) v -> (Z.of_nat (size p) <= 2 ^ 20)%Z ->
  finite (sum_abs p v) /\ value (sum_abs p v) = r_abs p (rat v) /\
  0 <= value (sum_abs p v) <= INR (size p) * bpow radix2 501.
Proof.
  intro Hv. induction p as [|i|p IHp q IHq|p IHp i]; intro Hs.
  - simpl. change (value b_zero) with 0. unfold size. simpl. repeat split; try lra.
  - destruct (at_small 501 v i Hv) as [F B]. simpl. destruct (b_abs_value _ F) as [Fa Va].
    split; [exact Fa|]. split; [exact Va|]. rewrite Va. unfold size. simpl. split; [apply Rabs_pos|]. rewrite Rmult_1_l. exact B.
  - rewrite size_join in *. destruct IHp as [F1 [V1 B1]]; [lia|]. destruct IHq as [F2 [V2 B2]]; [lia|].
    destruct (bounded_round (size p + size q) 501 (value (sum_abs p v) + value (sum_abs q v))) as [B O]; [lia|exact Hs| |].
    { rewrite plus_INR. lra. }
    destruct (b_plus_val _ _ F1 F2 O) as [V F]. simpl.
    split; [exact F|]. split; [|unfold value in *; rewrite V; exact B].
    rewrite <- V1, <- V2. exact V.
  - rewrite size_fused in *. destruct IHp as [F1 [V1 B1]]; [lia|]. destruct (at_small 501 v i Hv) as [F0 B0].
    destruct (b_abs_value _ F0) as [Fa Va].
    destruct (bounded_round (S (size p)) 501 (value (sum_abs p v) + value (b_abs (at_ v i)))) as [B O]; [lia|exact Hs| |].
    { rewrite S_INR, Va. pose proof (Rabs_pos (value (at_ v i))). lra. }
    destruct (b_plus_val _ _ F1 Fa O) as [V F]. simpl.
    split; [exact F|]. split; [|unfold value in *; rewrite V; exact B].
    rewrite <- V1. unfold rat. rewrite <- Va. exact V.
Qed.

Lemma sum_squares_val p v : Forall (small 501) v -> (Z.of_nat (size p) <= 2 ^ 20)%Z ->
  finite (sum_squares p v) /\ value (sum_squares p v) = r_sq p (rat v) /\
  0 <= value (sum_squares p v) <= INR (size p) * bpow radix2 1002.
Proof.
  intro Hv. induction p as [|i|p IHp q IHq|p IHp i]; intro Hs.
  - simpl. change (value b_zero) with 0. unfold size. simpl. repeat split; try lra.
  - destruct (small_mult 501 (at_ v i) (at_ v i)) as [[F B] V]; try lia; try (apply at_small, Hv). simpl.
    split; [exact F|]. split; [exact V|]. unfold size. simpl. rewrite Rmult_1_l. rewrite V in *.
    assert (0 <= brnd (value (at_ v i) * value (at_ v i))) by (apply brnd_nonneg, Rle_0_sqr).
    split; [assumption|]. rewrite Rabs_right in B by lra. exact B.
  - rewrite size_join in *. destruct IHp as [F1 [V1 B1]]; [lia|]. destruct IHq as [F2 [V2 B2]]; [lia|].
    destruct (bounded_round (size p + size q) 1002 (value (sum_squares p v) + value (sum_squares q v))) as [B O]; [lia|exact Hs| |].
    { rewrite plus_INR. lra. }
    destruct (b_plus_val _ _ F1 F2 O) as [V F]. simpl.
    split; [exact F|]. split; [|unfold value in *; rewrite V; exact B].
    rewrite <- V1, <- V2. exact V.
  - rewrite size_fused in *. destruct IHp as [F1 [V1 B1]]; [lia|]. destruct (at_small 501 v i Hv) as [F0 B0].
    assert (Q : 0 <= value (at_ v i) * value (at_ v i) <= bpow radix2 1002).
    { split; [apply Rle_0_sqr|]. change 1002%Z with (501 + 501)%Z. rewrite bpow_plus.
      rewrite <- (Rabs_right (value (at_ v i) * value (at_ v i))) by (apply Rle_ge, Rle_0_sqr). rewrite Rabs_mult.
      apply Rmult_le_compat; auto using Rabs_pos. }
    destruct (bounded_round (S (size p)) 1002 (value (at_ v i) * value (at_ v i) + value (sum_squares p v))) as [B O]; [lia|exact Hs| |].
    { rewrite S_INR. lra. }
    destruct (b_fma_val _ _ _ F0 F0 F1 O) as [V F]. simpl.
    split; [exact F|]. split; [|rewrite V; exact B].
    rewrite V, V1. reflexivity.
Qed.

Lemma max_abs_val p v : Forall (small 501) v -> magnitude (max_abs p v) /\ value (max_abs p v) = r_max p (rat v).
Proof.
  intro Hv. induction p as [|i|p [[F1 P1] V1] q [[F2 P2] V2]|p [[F1 P1] V1] i]; simpl.
  - split; [split; [reflexivity|change (value b_zero) with 0; lra]|reflexivity].
  - destruct (at_small 501 v i Hv) as [F B]. destruct (b_abs_value _ F) as [Fa Va].
    split; [split; [exact Fa|rewrite Va; apply Rabs_pos]|exact Va].
  - destruct (max_n_val _ _ F1 F2) as [F V]. split; [split; [exact F|]|rewrite <- V1, <- V2; exact V].
    eapply Rle_trans; [|apply Req_le; symmetry; exact V]. eapply Rle_trans; [exact P1|apply Rmax_l].
  - destruct (at_small 501 v i Hv) as [F0 B]. destruct (b_abs_value _ F0) as [Fa Va].
    destruct (max_n_val _ _ F1 Fa) as [F V]. split; [split; [exact F|]|rewrite <- V1; unfold rat; rewrite <- Va; exact V].
    eapply Rle_trans; [|apply Req_le; symmetry; exact V]. eapply Rle_trans; [exact P1|apply Rmax_l].
Qed.

(** *** Rounding errors of the plans *)
Lemma fmt_r_abs p r : (forall i, fmt (r i)) -> fmt (r_abs p r).
Proof. intro H. destruct p; simpl; auto using fmt_0, fmt_brnd, fmt_abs. Qed.
Lemma fmt_r_sq p r : fmt (r_sq p r).
Proof. destruct p; simpl; auto using fmt_0, fmt_brnd. Qed.

Lemma ur_lt_1 : ur < 1.
Proof. apply (bpow_lt radix2 (-53) 0). lia. Qed.
Lemma up_mono i j : (i <= j)%nat -> (1 + ur) ^ i <= (1 + ur) ^ j.
Proof. intro H. apply Rle_pow; [pose proof ur_pos; lra|exact H]. Qed.
Lemma down_mono i j : (i <= j)%nat -> (1 - ur) ^ j <= (1 - ur) ^ i.
Proof.
  intro H. assert (U := ur_pos). assert (U1 := ur_lt_1). induction H as [|j H IH]; [lra|].
  rewrite <- tech_pow_Rmult. assert (0 <= (1 - ur) ^ j) by (apply pow_le; lra). nra.
Qed.
Lemma up_pos i : 1 <= (1 + ur) ^ i.
Proof. rewrite <- (pow_O (1 + ur)). apply up_mono. lia. Qed.
Lemma down_pos i : 0 <= (1 - ur) ^ i <= 1.
Proof.
  assert (U := ur_pos). assert (U1 := ur_lt_1). split; [apply pow_le; lra|].
  rewrite <- (pow_O (1 - ur)). apply down_mono. lia.
Qed.

Lemma size_0_abs p r : size p = 0%nat -> r_abs p r = 0.
Proof.
  induction p as [|i|p IHp q IHq|p IHp i]; intro H; try discriminate; [reflexivity|].
  rewrite size_join in H. simpl. rewrite IHp, IHq by lia. rewrite Rplus_0_l. apply brnd_0.
Qed.
Lemma size_0_sq p r : size p = 0%nat -> r_sq p r = 0.
Proof.
  induction p as [|i|p IHp q IHq|p IHp i]; intro H; try discriminate; [reflexivity|].
  rewrite size_join in H. simpl. rewrite IHp, IHq by lia. rewrite Rplus_0_l. apply brnd_0.
Qed.
Lemma size_0_exact f p r : size p = 0%nat -> exact_sum f p r = 0.
Proof. unfold size, exact_sum. intro H. apply length_zero_iff_nil in H. rewrite H. reflexivity. Qed.

Lemma brnd_fmt x : fmt x -> brnd x = x.
Proof. intro H. apply round_generic; [apply valid_rnd_N|exact H]. Qed.

Lemma sum_abs_err p r : (forall i, fmt (r i)) ->
  (1 - ur) ^ size p * exact_sum Rabs p r <= r_abs p r <= (1 + ur) ^ size p * exact_sum Rabs p r.
Proof.
  intro Hr. assert (U := ur_pos). assert (U1 := ur_lt_1).
  assert (step : forall a b S1 S2 k1 k2 k, fmt a -> fmt b -> 0 <= S1 -> 0 <= S2 -> (S k1 <= k)%nat -> (S k2 <= k)%nat ->
    (1 - ur) ^ k1 * S1 <= a <= (1 + ur) ^ k1 * S1 -> (1 - ur) ^ k2 * S2 <= b <= (1 + ur) ^ k2 * S2 ->
    (1 - ur) ^ k * (S1 + S2) <= brnd (a + b) <= (1 + ur) ^ k * (S1 + S2)).
  { intros a b S1 S2 k1 k2 k Fa Fb H1 H2 L1 L2 Ha Hb. destruct k as [|k]; [lia|].
    assert (P1 := down_pos k1). assert (P2 := down_pos k2).
    assert (0 <= a) by (assert (0 <= (1 - ur) ^ k1 * S1) by (apply Rmult_le_pos; lra); lra).
    assert (0 <= b) by (assert (0 <= (1 - ur) ^ k2 * S2) by (apply Rmult_le_pos; lra); lra).
    pose proof (plus_err a b Fa Fb) as E. rewrite (Rabs_right (a + b)) in E by lra. apply Rabs_le_inv in E.
    assert (L : (1 - ur) ^ k * (S1 + S2) <= a + b).
    { pose proof (Rmult_le_compat_r S1 _ _ H1 (down_mono k1 k ltac:(lia))). pose proof (Rmult_le_compat_r S2 _ _ H2 (down_mono k2 k ltac:(lia))). lra. }
    assert (R : a + b <= (1 + ur) ^ k * (S1 + S2)).
    { pose proof (Rmult_le_compat_r S1 _ _ H1 (up_mono k1 k ltac:(lia))). pose proof (Rmult_le_compat_r S2 _ _ H2 (up_mono k2 k ltac:(lia))). lra. }
    rewrite <- !tech_pow_Rmult, !Rmult_assoc. split.
    - apply Rle_trans with ((1 - ur) * (a + b)); [apply Rmult_le_compat_l; lra|lra].
    - apply Rle_trans with ((1 + ur) * (a + b)); [lra|apply Rmult_le_compat_l; lra]. }
  induction p as [|i|p IHp q IHq|p IHp i].
  - unfold exact_sum, plain. simpl. lra.
  - unfold exact_sum, plain, size. simpl. pose proof (Rabs_pos (r i)). nra.
  - rewrite size_join, exact_join. simpl r_abs.
    destruct (Nat.eq_dec (size p) 0) as [E1|E1]; [|destruct (Nat.eq_dec (size q) 0) as [E2|E2]].
    + rewrite (size_0_abs p r E1), (size_0_exact Rabs p r E1), E1, !Rplus_0_l, brnd_fmt by (apply fmt_r_abs, Hr). exact IHq.
    + rewrite (size_0_abs q r E2), (size_0_exact Rabs q r E2), E2, !Rplus_0_r, brnd_fmt by (apply fmt_r_abs, Hr). rewrite Nat.add_0_r. exact IHp.
    + apply (step _ _ _ _ (size p) (size q)); auto using fmt_r_abs, (exact_nonneg Rabs), Rabs_pos; lia.
  - rewrite size_fused, exact_fused. simpl r_abs. rewrite (Rplus_comm (Rabs (r i))).
    apply (step _ _ _ _ (size p) 0%nat); auto using fmt_r_abs, fmt_abs, (exact_nonneg Rabs), Rabs_pos; try lia. simpl. lra.
Qed.

Lemma sum_sq_err p r :
  (1 - ur) ^ size p * exact_sum (fun a => a * a) p r - INR (size p) * tiny <= r_sq p r <=
  (1 + ur) ^ size p * (exact_sum (fun a => a * a) p r + INR (size p) * tiny).
Proof.
  assert (U := ur_pos). assert (U1 := ur_lt_1). assert (TY := tiny_pos).
  assert (sqp : forall a : R, 0 <= a * a) by apply Rle_0_sqr.
  (* one rounding of a sum [s] of non-negative numbers known up to the bounds of [k] steps *)
  assert (step : forall s z S k j t, 0 <= s -> 0 <= S -> 0 <= t <= tiny -> Rabs (z - s) <= ur * s + t -> (j <= k)%nat ->
    (1 - ur) ^ j * S - INR k * tiny <= s <= (1 + ur) ^ j * (S + INR k * tiny) ->
    (1 - ur) ^ Datatypes.S j * S - (INR k * tiny + t) <= z <= (1 + ur) ^ Datatypes.S j * (S + (INR k * tiny + t))).
  { intros s z S k j t Hs HS Ht E Lj [L R]. apply Rabs_le_inv in E. assert (Hk := pos_INR k).
    assert (Hkt : 0 <= INR k * tiny) by nra.
    assert (P := down_pos j). assert (Q := up_pos j). rewrite <- !tech_pow_Rmult, !Rmult_assoc. split.
    - apply Rle_trans with ((1 - ur) * s - t); [|lra].
      apply Rle_trans with ((1 - ur) * ((1 - ur) ^ j * S - INR k * tiny) - t); [|apply Rplus_le_compat_r, Rmult_le_compat_l; lra].
      assert (0 <= ur * (INR k * tiny)) by nra. lra.
    - apply Rle_trans with ((1 + ur) * s + t); [lra|].
      apply Rle_trans with ((1 + ur) * ((1 + ur) ^ j * (S + INR k * tiny)) + t); [apply Rplus_le_compat_r, Rmult_le_compat_l; lra|].
      set (W := (1 + ur) ^ j) in *. assert (t <= (1 + ur) * (W * t)) by (assert (t <= W * t) by nra; nra).
      replace ((1 + ur) * (W * (S + (INR k * tiny + t)))) with ((1 + ur) * (W * (S + INR k * tiny)) + (1 + ur) * (W * t)) by ring. lra. }
  assert (nn : forall p, 0 <= r_sq p r).
  { intro p0. induction p0; simpl; try apply brnd_nonneg; try lra; auto. pose proof (sqp (r i)). lra. }
  induction p as [|i|p IHp q IHq|p IHp i].
  - unfold exact_sum, plain, size. simpl. lra.
  - pose proof (step (r i * r i) (brnd (r i * r i)) (r i * r i) 0%nat 0%nat tiny (sqp _) (sqp _) ltac:(lra)) as W.
    unfold exact_sum, plain, size. simpl. simpl in W. rewrite Rplus_0_r, Rmult_1_l. rewrite Rmult_0_l, !Rplus_0_l in W. apply W.
    + pose proof (any_err (r i * r i)) as A. rewrite (Rabs_right (r i * r i)) in A by (apply Rle_ge, sqp). exact A.
    + lia.
    + lra.
  - rewrite size_join, exact_join. simpl r_sq.
    destruct (Nat.eq_dec (size p) 0) as [E1|E1]; [|destruct (Nat.eq_dec (size q) 0) as [E2|E2]].
    + rewrite (size_0_sq p r E1), (size_0_exact _ p r E1), E1, !Rplus_0_l, brnd_fmt by (apply fmt_r_sq). exact IHq.
    + rewrite (size_0_sq q r E2), (size_0_exact _ q r E2), E2, !Rplus_0_r, brnd_fmt by (apply fmt_r_sq). rewrite Nat.add_0_r. exact IHp.
    + set (k := (size p + size q)%nat) in *. assert (Hk : k = S (Nat.pred k)) by lia.
      pose proof (exact_nonneg (fun a => a * a) p r sqp) as S1. pose proof (exact_nonneg (fun a => a * a) q r sqp) as S2.
      set (P := exact_sum _ p r) in *. set (Q := exact_sum _ q r) in *.
      pose proof (pos_INR (size p)) as I1. pose proof (pos_INR (size q)) as I2.
      assert (T1 : 0 <= INR (size p) * tiny) by nra. assert (T2 : 0 <= INR (size q) * tiny) by nra.
      pose proof (step (r_sq p r + r_sq q r) (brnd (r_sq p r + r_sq q r)) (P + Q) k (Nat.pred k) 0) as W.
      rewrite <- Hk, !Rplus_0_r in W. apply W; try lra; try lia.
      * pose proof (nn p). pose proof (nn q). lra.
      * pose proof (plus_err _ _ (fmt_r_sq p r) (fmt_r_sq q r)) as E.
        rewrite (Rabs_right (r_sq p r + r_sq q r)) in E by (pose proof (nn p); pose proof (nn q); lra). lra.
      * replace (INR k) with (INR (size p) + INR (size q)) by (unfold k; rewrite plus_INR; reflexivity).
        split.
        -- pose proof (Rmult_le_compat_r P _ _ S1 (down_mono (size p) (Nat.pred k) ltac:(lia))).
           pose proof (Rmult_le_compat_r Q _ _ S2 (down_mono (size q) (Nat.pred k) ltac:(lia))). lra.
        -- pose proof (Rmult_le_compat_r (P + INR (size p) * tiny) _ _ ltac:(lra) (up_mono (size p) (Nat.pred k) ltac:(lia))).
           pose proof (Rmult_le_compat_r (Q + INR (size q) * tiny) _ _ ltac:(lra) (up_mono (size q) (Nat.pred k) ltac:(lia))). lra.
  - rewrite size_fused, exact_fused. simpl r_sq. rewrite S_INR.
    pose proof (exact_nonneg (fun a => a * a) p r sqp) as S1. set (P := exact_sum _ p r) in *. cbv beta.
    pose proof (step (r i * r i + r_sq p r) (brnd (r i * r i + r_sq p r)) (r i * r i + P) (size p) (size p) tiny) as W.
    replace ((INR (size p) + 1) * tiny) with (INR (size p) * tiny + tiny) by ring. apply W; try lia; try lra.
    + pose proof (sqp (r i)). pose proof (nn p). lra.
    + pose proof (sqp (r i)). lra.
    + pose proof (any_err (r i * r i + r_sq p r)) as A. pose proof (sqp (r i)). pose proof (nn p).
      rewrite (Rabs_right (r i * r i + r_sq p r)) in A by lra. exact A.
    + pose proof (sqp (r i)) as Hsq. pose proof (down_pos (size p)). pose proof (up_pos (size p)).
      rewrite !Rmult_plus_distr_l in *. split; nra.
Qed.

(** *** The distances *)
Lemma map_at_seq (v : list b64) (f : b64 -> R) : map (fun i => f (at_ v i)) (seq 0 (length v)) = map f v.
Proof.
  unfold at_. induction v as [|a v IH]; simpl; [reflexivity|]. f_equal. rewrite <- seq_shift, map_map. exact IH.
Qed.
Lemma plan_size m p : plan_for m p -> size p = m.
Proof. intro H. unfold size. rewrite (Permutation_length H). apply seq_length. Qed.
Lemma plan_terms (f : R -> R) m p v : plan_for m p -> length v = m ->
  Permutation (map (fun i => f (rat v i)) (items p)) (map f (map value v)).
Proof.
  intros H L. rewrite map_map, <- (map_at_seq v (fun a => f (value a))), L.
  exact (Permutation_map (fun i => f (value (at_ v i))) H).
Qed.
Lemma plan_exact (f : R -> R) m p v : plan_for m p -> length v = m -> exact_sum f p (rat v) = plain (map f (map value v)).
Proof. intros H L. apply plain_perm, (plan_terms f m p v H L). Qed.

Lemma max_perm l m : Permutation l m -> fold_right Rmax 0 l = fold_right Rmax 0 m.
Proof.
  intro H. induction H; simpl; auto; [congruence| |congruence].
  rewrite !Rmax_assoc. f_equal. apply Rmax_comm.
Qed.
Lemma max_nonneg l : 0 <= fold_right Rmax 0 l.
Proof. destruct l as [|a l]; simpl; [lra|]. induction l as [|b l IH] in a |- *; simpl; [apply Rmax_r|]. eapply Rle_trans; [apply (IH b)|apply Rmax_r]. Qed.
Lemma max_app l m : fold_right Rmax 0 (l ++ m) = Rmax (fold_right Rmax 0 l) (fold_right Rmax 0 m).
Proof.
  induction l as [|a l IH]; simpl; [symmetry; apply Rmax_right, max_nonneg|]. rewrite IH. apply Rmax_assoc.
Qed.
Lemma r_max_list p r : r_max p r = fold_right Rmax 0 (map (fun i => Rabs (r i)) (items p)).
Proof.
  induction p as [|i|p IHp q IHq|p IHp i]; simpl; [reflexivity| | |].
  - symmetry. apply Rmax_left, Rabs_pos.
  - rewrite map_app, max_app. congruence.
  - rewrite IHp. apply Rmax_comm.
Qed.

Lemma r_abs_ext p r r' : (forall i, Rabs (r i) = Rabs (r' i)) -> r_abs p r = r_abs p r'.
Proof. intro H. induction p; simpl; rewrite ?H; congruence. Qed.
Lemma r_sq_ext p r r' : (forall i, r i * r i = r' i * r' i) -> r_sq p r = r_sq p r'.
Proof. intro H. induction p; simpl; rewrite ?H; congruence. Qed.
Lemma r_abs_zero p r : (forall i, r i = 0) -> r_abs p r = 0.
Proof.
  intro H. induction p as [|i|p IHp q IHq|p IHp i]; simpl; rewrite ?H, ?IHp, ?IHq, ?Rabs_R0, ?Rplus_0_l; auto using brnd_0.
Qed.
Lemma r_sq_zero p r : (forall i, r i = 0) -> r_sq p r = 0.
Proof.
  intro H. induction p as [|i|p IHp q IHq|p IHp i]; simpl; rewrite ?H, ?IHp, ?IHq, ?Rmult_0_l, ?Rplus_0_l; auto using brnd_0.
Qed.

Lemma minus_ok m x y : moderate m x -> moderate m y ->
  Forall (small 501) (map2 b_minus x y) /\ map value (map2 b_minus x y) = diffs x y /\ length (map2 b_minus x y) = m.
Proof. exact (sub_ok m x y). Qed.

(** Differences in the other direction, and from a vector to itself. *)
Lemma rat_nth v i : rat v i = nth i (map value v) 0.
Proof. unfold rat, at_. change 0 with (value b_zero). symmetry. apply map_nth. Qed.
Lemma rat_opp m x y i : moderate m x -> moderate m y -> rat (map2 b_minus y x) i = - rat (map2 b_minus x y) i.
Proof.
  intros Hx Hy. rewrite !rat_nth.
  destruct (minus_ok m x y Hx Hy) as [_ [V _]], (minus_ok m y x Hy Hx) as [_ [V' _]].
  rewrite V, V', diffs_opp. rewrite <- Ropp_0 at 1. apply map_nth.
Qed.
Lemma rat_self m x i : moderate m x -> rat (map2 b_minus x x) i = 0.
Proof.
  intro Hx. rewrite rat_nth. destruct (minus_ok m x x Hx Hx) as [_ [V _]].  rewrite V.
  pose proof (diffs_self x) as D. destruct (nth_in_or_default i (diffs x x) 0) as [I|E]; [|exact E].
  rewrite Forall_forall in D. exact (D _ I).
Qed.
Lemma rat_fmt v i : fmt (rat v i).
Proof. apply fmt_value. Qed.

Lemma fast_manhattan_close m p : (Z.of_nat m <= 2 ^ 20)%Z -> plan_for m p -> close_to m (fast_manhattan p) (manhattan RA sqrt).
Proof.
  intros Hm Hp. assert (Sz := plan_size m p Hp).
  assert (Val : forall x y, moderate m x -> moderate m y ->
    magnitude (fast_manhattan p x y) /\ value (fast_manhattan p x y) = r_abs p (rat (map2 b_minus x y))).
  { intros x y Hx Hy. destruct (minus_ok m x y Hx Hy) as [S _].
    destruct (sum_abs_val p (map2 b_minus x y) S) as [F [V B]]; [rewrite Sz; exact Hm|].
    split; [split; [exact F|apply B]|exact V]. }
  assert (M := manhattan_metric m). split; [|split; [exact M|]].
  - split.
    + intros x y Hx Hy. destruct (Val x y Hx Hy) as [Mg V], (Val y x Hy Hx) as [_ V']. split; [exact Mg|].
      rewrite V, V'. apply r_abs_ext. intro i. rewrite (rat_opp m x y i Hx Hy). symmetry. apply Rabs_Ropp.
    + intros x Hx. destruct (Val x x Hx Hx) as [_ V]. rewrite V. apply r_abs_zero. intro i. apply (rat_self m x i Hx).
  - intros x y Hx Hy. destruct (Val x y Hx Hy) as [_ V]. rewrite V. clear V.
    destruct (minus_ok m x y Hx Hy) as [_ [Vd Ld]].
    pose proof (sum_abs_err p (rat (map2 b_minus x y)) (rat_fmt _)) as E. rewrite Sz, (plan_exact Rabs m p _ Hp Ld), Vd in E.
    assert (P0 : 0 <= manhattan RA sqrt (reals x) (reals y)).
    { assert (Hd : forall x, moderate m x -> dim m (reals x)) by (intros z [L _]; unfold dim, reals; rewrite map_length; exact L).
      apply M; auto. }
    destruct Hx as [Lx _], Hy as [Ly _].
    assert (D := diffs_err x y). assert (U := ur_pos). revert P0.
    rewrite manhattan_total, <- plain_total. fold (tdiffs x y). intro HS.
    assert (W : Rabs (plain (map Rabs (diffs x y)) - plain (map Rabs (tdiffs x y))) <= ur * plain (map Rabs (tdiffs x y))).
    { rewrite <- (Rplus_0_r (ur * _)). rewrite <- (Rmult_0_r (INR (length (map Rabs (tdiffs x y))))).
      apply plain_within; [lra|]. eapply F2_map; [|exact D]. intros a b [_ H]. cbv beta.
      eapply Rle_trans; [apply Rabs_diff|]. lra. }
    set (P := plain (map Rabs (diffs x y))) in *. set (S := plain (map Rabs (tdiffs x y))) in *.
    pose proof (length_bound m Hm) as B. assert (S33 : bpow radix2 (-33) <= / 2) by (apply (bpow_le radix2 (-33) (-1)); lia).
    pose proof (pow_up m ltac:(lra)) as PU. pose proof (pow_down m) as PD.
    apply Rle_trans with ((INR m + 1) * bpow radix2 (-52) * S + 0);
      [|apply rounding_ge; [lra|exact HS|lra|apply Rmult_le_pos; [apply pos_INR|apply bpow_ge_0]]].
    rewrite <- two_u, Rplus_0_r. set (n := INR m) in *. assert (Hn : 0 <= n) by apply pos_INR.
    assert (Hnu : 0 <= n * ur) by nra. apply Rabs_le_inv in W.
    assert (U1 : ur <= / 16) by (apply (bpow_le radix2 (-53) (-4)); lia).
    assert (HP : 0 <= P) by nra.
    assert (E1 : (1 - n * ur) * P <= r_abs p (rat (map2 b_minus x y))) by (eapply Rle_trans; [|apply E]; apply Rmult_le_compat_r; lra).
    assert (E2 : r_abs p (rat (map2 b_minus x y)) <= (1 + 2 * n * ur) * P) by (eapply Rle_trans; [apply E|]; apply Rmult_le_compat_r; lra).
    assert (Q : 0 <= n * ur * P) by (apply Rmult_le_pos; lra).
    apply Rabs_le.
    assert (n * ur * P <= n * ur * (S + ur * S)) by (apply Rmult_le_compat_l; lra).
    assert (0 <= ur * S) by (apply Rmult_le_pos; lra).
    assert (n * ur * (ur * S) <= / 2 * (ur * S)) by (apply Rmult_le_compat_r; lra).
    split; nra.
Qed.

Lemma fast_chebyshev_close m p : plan_for m p -> close_to m (fast_chebyshev p) (chebyshev_norm RA sqrt).
Proof.
  intros Hp.
  assert (Val : forall x y, moderate m x -> moderate m y ->
    magnitude (fast_chebyshev p x y) /\ value (fast_chebyshev p x y) = che_r x y).
  { intros x y Hx Hy. destruct (minus_ok m x y Hx Hy) as [S [V L]].
    destruct (max_abs_val p (map2 b_minus x y) S) as [Mg E]. split; [exact Mg|]. etransitivity; [exact E|].
    rewrite r_max_list. unfold che_r. rewrite <- V. apply max_perm. exact (plan_terms Rabs m p _ Hp L). }
  assert (M := chebyshev_metric m). split; [|split; [exact M|]].
  - split.
    + intros x y Hx Hy. destruct (Val x y Hx Hy) as [Mg V], (Val y x Hy Hx) as [_ V']. split; [exact Mg|]. rewrite V, V'. apply che_sym.
    + intros x Hx. destruct (Val x x Hx Hx) as [_ V]. rewrite V. apply che_self.
  - intros x y Hx Hy. destruct (Val x y Hx Hy) as [_ V]. rewrite V.
    assert (P : 0 <= chebyshev_norm RA sqrt (reals x) (reals y)).
    { assert (Hd : forall x, moderate m x -> dim m (reals x)) by (intros z [L _]; unfold dim, reals; rewrite map_length; exact L).
      apply M; auto. }
    eapply Rle_trans; [apply che_err|]. rewrite <- (Rplus_0_r (_ * _)).
    replace ur with (/ 2 * bpow radix2 (-52)) by (rewrite <- two_u; field).
    apply rounding_ge; try lra; [pose proof (pos_INR m); lra|apply Rmult_le_pos; [apply pos_INR|apply bpow_ge_0]].
Qed.

Lemma fast_euclidean_close m p : (Z.of_nat m <= 2 ^ 20)%Z -> plan_for m p -> close_to m (fast_euclidean p) (euclidean RA sqrt).
Proof.
  intros Hm Hp. assert (Sz := plan_size m p Hp).
  assert (Val : forall x y, moderate m x -> moderate m y ->
    magnitude (fast_euclidean p x y) /\ value (fast_euclidean p x y) = brnd (sqrt (r_sq p (rat (map2 b_minus x y)))) /\
    0 <= r_sq p (rat (map2 b_minus x y))).
  { intros x y Hx Hy. destruct (minus_ok m x y Hx Hy) as [S _].
    destruct (sum_squares_val p (map2 b_minus x y) S) as [F [V B]]; [rewrite Sz; exact Hm|].
    destruct (sqrt_val (sum_squares p (map2 b_minus x y))) as [Mg E]; [split; [exact F|apply B]|].
    split; [exact Mg|]. rewrite <- V. split; [exact E|apply B]. }
  split; [|split; [apply euclidean_metric|]].
  - split.
    + intros x y Hx Hy. destruct (Val x y Hx Hy) as [Mg [V _]], (Val y x Hy Hx) as [_ [V' _]]. split; [exact Mg|].
      rewrite V, V'. do 2 f_equal. apply r_sq_ext. intro i. rewrite (rat_opp m x y i Hx Hy). ring.
    + intros x Hx. destruct (Val x x Hx Hx) as [_ [V _]]. rewrite V, r_sq_zero, sqrt_0; [apply brnd_0|]. intro i. apply (rat_self m x i Hx).
  - intros x y Hx Hy. destruct (Val x y Hx Hy) as [_ [V NN]]. rewrite V. clear V.
    destruct (minus_ok m x y Hx Hy) as [_ [Vd Ld]].
    pose proof (sum_sq_err p (rat (map2 b_minus x y))) as E. rewrite Sz, (plan_exact _ m p _ Hp Ld), Vd in E.
    destruct Hx as [Lx _], Hy as [Ly _].
    destruct (euclidean_doc (reals x) (reals y)) as [D0 DD]. set (D := euclidean RA sqrt (reals x) (reals y)) in *.
    rewrite <- (plain_total (fun a => a * a)) in DD. fold (tdiffs x y) in DD.
    assert (F := diffs_err x y). assert (U := ur_pos). assert (TY := tiny_pos).
    assert (US : ur <= / 1024) by (apply (bpow_le radix2 (-53) (-10)); lia).
    assert (W : Rabs (plain (map (fun a => a * a) (diffs x y)) - D * D) <= (2 * ur + ur * ur) * (D * D)).
    { rewrite DD, <- (Rplus_0_r (_ * plain _)). rewrite <- (Rmult_0_r (INR (length (map (fun a => a * a) (tdiffs x y))))).
      apply plain_within; [lra|]. eapply F2_map; [|exact F]. intros a b [_ H]. cbv beta. rewrite Rplus_0_r.
      replace (a * a - b * b) with ((a - b) * (a - b + 2 * b)) by ring. rewrite Rabs_mult.
      apply Rle_trans with (ur * Rabs b * (ur * Rabs b + 2 * Rabs b)).
      - apply Rmult_le_compat; auto using Rabs_pos. eapply Rle_trans; [apply Rabs_triang|].
        rewrite (Rabs_mult 2), (Rabs_right 2) by lra. lra.
      - assert (Eb : Rabs b * Rabs b = b * b) by (rewrite <- Rabs_mult; apply Rabs_right, Rle_ge, Rle_0_sqr). nra. }
    set (P := plain (map (fun a => a * a) (diffs x y))) in *.
    pose proof (length_bound m Hm) as B. assert (S33 : bpow radix2 (-33) <= / 64) by (apply (bpow_le radix2 (-33) (-6)); lia).
    apply root_err; auto using fmt_r_sq; [lra|].
    pose proof (pow_up m ltac:(lra)) as PU. pose proof (pow_down m) as PD.
    set (S := D * D) in *. assert (HS : 0 <= S) by (unfold S; nra). set (V := r_sq p _) in *.
    set (n := INR m) in *. assert (Hn : 0 <= n) by apply pos_INR. assert (Hnu : 0 <= n * ur <= / 64) by (split; [nra|lra]).
    assert (HE : 0 <= n * tiny) by nra. apply Rabs_le_inv in W.
    assert (HP : 0 <= P) by (apply plain_nonneg; apply Forall_forall; intros z Hz; apply in_map_iff in Hz; destruct Hz as [a [<- _]]; apply Rle_0_sqr).
    assert (E1 : (1 - n * ur) * P - n * tiny <= V) by (eapply Rle_trans; [|apply E]; apply Rplus_le_compat_r, Rmult_le_compat_r; lra).
    assert (E2 : V <= (1 + 2 * n * ur) * (P + n * tiny)) by (eapply Rle_trans; [apply E|]; apply Rmult_le_compat_r; lra).
    clear E PU PD. assert (HuS : 0 <= ur * S) by (apply Rmult_le_pos; lra).
    assert (Uu : ur * ur * S <= / 1024 * (ur * S)) by (replace (ur * ur * S) with (ur * (ur * S)) by ring; apply Rmult_le_compat_r; lra).
    assert (Q1 : n * ur * P <= n * ur * S + / 16 * (ur * S)).
    { apply Rle_trans with (n * ur * (S + 3 * (ur * S))); [apply Rmult_le_compat_l; lra|].
      assert (n * ur * (3 * (ur * S)) <= / 64 * (3 * (ur * S))) by (apply Rmult_le_compat_r; lra). lra. }
    assert (Q2 : n * ur * (n * tiny) <= / 64 * (n * tiny)) by (apply Rmult_le_compat_r; lra).
    apply Rabs_le. split; nra.
Qed.

Lemma fast_double name m p : In name three -> (Z.of_nat m <= 2 ^ 20)%Z -> plan_for m p ->
  exists D, get_metric RA sqrt (Name name) [] = Ok (total_fn RA D) /\ close_to m (fast_metric name p) D.
Proof.
  intros [<-|[<-|[<-|[]]]] Hm Hp; eexists; (split; [reflexivity|]).
  - apply (fast_euclidean_close m p Hm Hp).
  - apply (fast_manhattan_close m p Hm Hp).
  - apply (fast_chebyshev_close m p Hp).
Qed.
