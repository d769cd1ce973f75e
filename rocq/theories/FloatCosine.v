(** How far the cosine distance computed in double precision is from the true one. *)
From Coq Require Import Reals Lra Psatz.
From Flocq Require Import Core BinarySingleNaN Relative Plus_error Div_sqrt_error.
From Verif Require Import Base ModelArith ModelMetrics ModelFloat FloatFacts SpecDouble SpecMetric SpecMetrics
  SpecCubical SpecCosine VPProp FloatMetric MetricFacts MetricProp FloatAccuracy FloatGrid FloatCubicalFit.
Open Scope R_scope.

(** *** Sums of numbers of any sign *)
Lemma plain_abs_nonneg l : 0 <= plain (map Rabs l).
Proof. apply plain_nonneg. apply Forall_forall. intros z Hz. apply in_map_iff in Hz as [a [<- _]]. apply Rabs_pos. Qed.

Lemma plain_abs_le l : Rabs (plain l) <= plain (map Rabs l).
Proof.
  induction l as [|a l IH]; [unfold plain; simpl; rewrite Rabs_R0; lra|].
  change (plain (a :: l)) with (a + plain l). change (plain (map Rabs (a :: l))) with (Rabs a + plain (map Rabs l)).
  eapply Rle_trans; [apply Rabs_triang|]. lra.
Qed.

Lemma fold_signed l : Forall fmt l -> forall s, fmt s ->
  Rabs (fold_left (fun s a => brnd (s + a)) l s - (s + plain l)) <= ((1 + ur) ^ length l - 1) * (Rabs s + plain (map Rabs l)).
Proof.
  assert (U := ur_pos). intro H. induction H as [|a l Fa H IH]; intros s Fs.
  - unfold plain. simpl. replace (s - (s + 0)) with 0 by ring. rewrite Rabs_R0. lra.
  - simpl fold_left. specialize (IH (brnd (s + a)) (fmt_brnd _)). pose proof (plus_err s a Fs Fa) as P.
    change (plain (a :: l)) with (a + plain l). change (plain (map Rabs (a :: l))) with (Rabs a + plain (map Rabs l)).
    simpl length. rewrite <- tech_pow_Rmult. set (q := (1 + ur) ^ length l) in *. set (B := plain (map Rabs l)) in *.
    assert (Q : 1 <= q) by (apply pow_R1_Rle; lra). assert (HB : 0 <= B) by apply plain_abs_nonneg.
    pose proof (Rabs_triang s a) as T. set (r := Rabs s + Rabs a) in *.
    assert (P1 : Rabs (brnd (s + a) - (s + a)) <= ur * r) by (eapply Rle_trans; [exact P|apply Rmult_le_compat_l; lra]).
    assert (P2 : Rabs (brnd (s + a)) <= (1 + ur) * r).
    { replace (brnd (s + a)) with ((brnd (s + a) - (s + a)) + (s + a)) by ring. eapply Rle_trans; [apply Rabs_triang|]. lra. }
    set (f := fold_left _ l _) in *.
    replace (f - (s + (a + plain l))) with ((f - (brnd (s + a) + plain l)) + (brnd (s + a) - (s + a))) by ring.
    eapply Rle_trans; [apply Rabs_triang|].
    assert (R0 : 0 <= r) by (unfold r; pose proof (Rabs_pos s); pose proof (Rabs_pos a); lra).
    assert (I2 : (q - 1) * (Rabs (brnd (s + a)) + B) <= (q - 1) * ((1 + ur) * r + B)) by (apply Rmult_le_compat_l; lra).
    assert (0 <= ur * q) by (apply Rmult_le_pos; lra).
    replace (Rabs s + (Rabs a + B)) with (r + B) by (unfold r; ring). nra.
Qed.

Lemma rsum_signed l : Forall fmt l -> INR (length l) * ur <= / 2 ->
  Rabs (rsum l - plain l) <= 2 * INR (length l) * ur * plain (map Rabs l).
Proof.
  intros H Hn. pose proof (fold_signed l H 0 fmt_0) as P. fold (rsum l) in P. rewrite Rplus_0_l, Rabs_R0, Rplus_0_l in P.
  eapply Rle_trans; [exact P|]. apply Rmult_le_compat_r; [apply plain_abs_nonneg|]. pose proof (pow_up (length l) Hn). lra.
Qed.

Lemma sum_signed k l : (-1074 <= k <= 1003)%Z -> forall i s,
  (0 <= i)%Z -> (i + Z.of_nat (length l) <= 2 ^ 20)%Z ->
  finite s -> Rabs (value s) <= IZR i * bpow radix2 k -> Forall (small k) l ->
  finite (fold_left b_plus l s) /\
  value (fold_left b_plus l s) = fold_left (fun s a => brnd (s + a)) (map value l) (value s).
Proof.
  intros Hk. induction l as [|a l IH]; intros i s Hi Hl Fs Hs HF; [simpl; auto|].
  inversion HF as [|b m [Fa Ha] HF']; subst. simpl length in Hl.
  assert (B : Rabs (value s + value a) <= IZR (i + 1) * bpow radix2 k).
  { rewrite plus_IZR, Rmult_plus_distr_r, Rmult_1_l. eapply Rle_trans; [apply Rabs_triang|]. lra. }
  assert (B2 : Rabs (brnd (value s + value a)) <= IZR (i + 1) * bpow radix2 k).
  { rewrite <- brnd_abs, <- (brnd_int_pow (i + 1) k) by lia. apply brnd_le, B. }
  assert (O : IZR (i + 1) * bpow radix2 k < ovf).
  { apply Rle_lt_trans with (bpow radix2 20 * bpow radix2 k).
    - apply Rmult_le_compat_r; [apply bpow_ge_0|]. change (bpow radix2 20) with (IZR (2 ^ 20)). apply IZR_le. lia.
    - rewrite <- bpow_plus. apply bpow_lt. lia. }
  destruct (b_plus_val s a Fs Fa) as [V F]; [eapply Rle_lt_trans; [exact B2|exact O]|].
  simpl fold_left. destruct (IH (i + 1)%Z (b_plus s a)) as [I1 I2]; auto; try lia.
  { unfold value. rewrite V. exact B2. }
  split; [exact I1|]. rewrite I2. unfold value at 2. rewrite V. reflexivity.
Qed.

(** *** The norm and the product *)
Definition nrm_r (x : list b64) : R := brnd (sqrt (rsum (map (fun a => brnd (a * a)) (reals x)))).
Definition dot_r (x y : list b64) : R := rsum (map2 (fun a b => brnd (a * b)) (reals x) (reals y)).

Lemma norm2_val x : (Z.of_nat (length x) <= 2 ^ 20)%Z -> Forall (small 300) x ->
  magnitude (norm2 BA b_sqrt x) /\ value (norm2 BA b_sqrt x) = nrm_r x.
Proof.
  intros Hm Hx. unfold norm2. change (mul BA) with b_mult.
  destruct (sq_list x) as [A1 A2].
  { eapply Forall_impl; [|exact Hx]. intros a [F L]. split; [exact F|]. eapply Rle_trans; [exact L|]. apply bpow_le. lia. }
  destruct (sum_n_val 1002 (map (fun a => b_mult a a) x)) as [M E]; auto; try lia.
  { replace (length (map (fun a => b_mult a a) x)) with (length x); [exact Hm|]. symmetry. apply map_length. }
  destruct (sqrt_val _ M) as [M2 E2]. split; [exact M2|]. etransitivity; [exact E2|].
  unfold nrm_r. do 2 f_equal. etransitivity; [exact E|]. f_equal. exact A2.
Qed.

Lemma dot_val x y : length x = length y -> (Z.of_nat (length x) <= 2 ^ 20)%Z -> Forall (small 300) x -> Forall (small 300) y ->
  finite (dot BA x y) /\ value (dot BA x y) = dot_r x y.
Proof.
  intros L Hm Hx Hy. unfold dot, sum_n. change (mul BA) with b_mult. change (add BA) with b_plus. rewrite zero_BA.
  assert (P : Forall (small 600) (map2 b_mult x y) /\ map value (map2 b_mult x y) = map2 (fun a b => brnd (a * b)) (reals x) (reals y)).
  { clear Hm. revert y L Hy. induction Hx as [|a x Ha Hx IH]; intros [|b y] L Hy; try discriminate; [split; constructor|].
    inversion Hy as [|b' y' Hb Hy']; subst. destruct (IH y) as [I1 I2]; [simpl in L; lia|exact Hy'|].
    destruct (small_mult 300 a b) as [S V]; auto; try lia. split; [constructor; [exact S|exact I1]|].
    exact (f_equal2 cons V I2). }
  destruct P as [P1 P2].
  assert (Ln : length (map2 b_mult x y) = length x) by (apply map2_length, L).
  destruct (sum_signed 600 (map2 b_mult x y) ltac:(lia) 0%Z b_zero) as [F V]; auto; try lia.
  - reflexivity.
  - change (value b_zero) with 0. rewrite Rabs_R0, Rmult_0_l. lra.
  - split; [exact F|]. etransitivity; [exact V|]. rewrite P2. reflexivity.
Qed.

(** Cauchy and Schwarz, for sums of absolute values. *)
Lemma abs_total x y : total Rmult (map Rabs x) (map Rabs y) = plain (map Rabs (map2 Rmult x y)).
Proof.
  revert y. induction x as [|a x IH]; intros [|b y]; [reflexivity..|]. simpl. rewrite IH, Rabs_mult. reflexivity.
Qed.
Lemma abs_nrm x : nrm (map Rabs x) = nrm x.
Proof.
  unfold nrm. f_equal. induction x as [|a x IH]; simpl; [reflexivity|]. rewrite IH, <- Rabs_mult, (Rabs_right (a * a)); [reflexivity|].
  apply Rle_ge, Rle_0_sqr.
Qed.
Lemma plain_dot x y : plain (map2 Rmult x y) = total Rmult x y.
Proof. revert y. induction x as [|a x IH]; intros [|b y]; try reflexivity. simpl. rewrite <- IH. reflexivity. Qed.

Lemma product_bound x y : length x = length y -> 0 < nrm x -> 0 < nrm y -> plain (map Rabs (map2 Rmult x y)) <= nrm x * nrm y.
Proof.
  intros L Hx Hy. rewrite <- abs_total, <- (abs_nrm x), <- (abs_nrm y). rewrite <- (abs_nrm x) in Hx. rewrite <- (abs_nrm y) in Hy.
  set (u := map Rabs x) in *. set (v := map Rabs y) in *.
  assert (Luv : length u = length v) by (unfold u, v; rewrite !map_length; exact L).
  pose proof (unit_dist u v (proj2 (nrm_pos u) Hx) (proj2 (nrm_pos v) Hy) Luv) as E.
  assert (N : forall a b, 0 <= total (fun s t => (s - t) * (s - t)) a b).
  { induction a as [|s a IH]; intros [|t b]; simpl; try lra. specialize (IH b). pose proof (Rle_0_sqr (s - t)) as Q. unfold Rsqr in Q. lra. }
  specialize (N (unit u) (unit v)). rewrite E in N. assert (M : 0 < nrm u * nrm v) by (apply Rmult_lt_0_compat; assumption).
  assert (S1 : total Rmult u v / (nrm u * nrm v) <= 1) by lra.
  apply (Rmult_le_compat_r (nrm u * nrm v)) in S1; [|lra]. unfold Rdiv in S1. rewrite Rmult_assoc, Rinv_l, Rmult_1_r, Rmult_1_l in S1; lra.
Qed.

Lemma nrm_r_err x : (Z.of_nat (length x) <= 2 ^ 20)%Z ->
  Rabs (nrm_r x - nrm (reals x)) <= (INR (length x) + 5) * bpow radix2 (-52) * nrm (reals x) + INR (length x) * bpow radix2 (-536).
Proof.
  intro Hm. assert (D0 : 0 <= nrm (reals x)) by apply sqrt_pos. assert (DD := nrm_sq (reals x)). rewrite <- sum_sq in DD.
  set (D := nrm (reals x)) in *. fold (plain (map (fun a => a * a) (reals x))) in DD.
  assert (U := ur_pos). assert (TY := tiny_pos).
  set (sq := map (fun a => brnd (a * a)) (reals x)).
  assert (Ln : length sq = length x) by (unfold sq, reals; rewrite !map_length; reflexivity).
  assert (Lt : length (map (fun a => a * a) (reals x)) = length x) by (unfold reals; rewrite !map_length; reflexivity).
  pose proof (length_bound _ Hm) as B. assert (S33 : bpow radix2 (-33) <= / 64) by (apply (bpow_le radix2 (-33) (-6)); lia).
  assert (US : ur <= / 1024) by (apply (bpow_le radix2 (-53) (-10)); lia).
  assert (PS : Forall (fun a => fmt a /\ 0 <= a) sq).
  { unfold sq. apply Forall_forall. intros z Hz. apply in_map_iff in Hz. destruct Hz as [a [<- _]].
    split; [apply fmt_brnd|apply brnd_nonneg, Rle_0_sqr]. }
  destruct (rsum_err sq PS) as [E Fr]; [rewrite Ln; lra|]. rewrite Ln in E.
  assert (W : Rabs (plain sq - D * D) <= 4 * ur * (D * D) + INR (length x) * tiny).
  { rewrite DD. rewrite <- Lt. apply plain_within; [lra|]. unfold sq. generalize (reals x) as l. clear - U TY.
    induction l as [|a l IH]; constructor; [|exact IH]. pose proof (any_err (a * a)) as A.
    assert (Q := Rle_0_sqr a). unfold Rsqr in Q. rewrite (Rabs_right (a * a)) in A by lra. nra. }
  set (n := INR (length x)) in *. assert (Hn : 0 <= n) by apply pos_INR.
  assert (Hnu : 0 <= n * ur <= / 64) by (split; [nra|lra]).
  set (P := plain sq) in *. set (S := D * D) in *. assert (HS : 0 <= S) by (unfold S; nra).
  assert (HE : 0 <= n * tiny) by nra.
  assert (R1 : Rabs (rsum sq - S) <= (2 * n + 8) * ur * S + 2 * n * tiny).
  { replace (rsum sq - S) with ((rsum sq - P) + (P - S)) by ring. eapply Rle_trans; [apply Rabs_triang|].
    apply Rabs_le_inv in W.
    apply Rle_trans with (2 * n * ur * (S + (4 * ur * S + n * tiny)) + (4 * ur * S + n * tiny)).
    - apply Rplus_le_compat; [|apply Rabs_le; lra]. eapply Rle_trans; [exact E|]. apply Rmult_le_compat_l; lra.
    - assert (HuS : 0 <= ur * S) by nra.
      assert (2 * n * ur * (4 * ur * S) <= ur * S) by (replace (2 * n * ur * (4 * ur * S)) with ((8 * (n * ur)) * (ur * S)) by ring; nra).
      assert (2 * n * ur * (n * tiny) <= n * tiny) by nra. nra. }
  assert (RN : 0 <= rsum sq).
  { destruct (fold_bounds sq PS 0 fmt_0 (Rle_refl 0)) as [[Lo _] _]. eapply Rle_trans; [|exact Lo].
    rewrite Rplus_0_l. apply Rmult_le_pos; [apply pow_le; lra|]. apply plain_nonneg.
    eapply Forall_impl; [|exact PS]. intros z [_ Hz]. exact Hz. }
  apply (root_err (rsum sq) D (length x)); auto. fold n. lra.
Qed.

Lemma dot_r_err x y : length x = length y -> (Z.of_nat (length x) <= 2 ^ 20)%Z ->
  let P := plain (map Rabs (map2 Rmult (reals x) (reals y))) in
  Rabs (dot_r x y - total Rmult (reals x) (reals y)) <= (2 * INR (length x) + 2) * ur * P + 2 * INR (length x) * tiny.
Proof.
  intros L Hm P. assert (U := ur_pos). assert (TY := tiny_pos).
  set (pr := map2 (fun a b => brnd (a * b)) (reals x) (reals y)).
  assert (Lr : length (reals x) = length (reals y)) by (unfold reals; rewrite !map_length; exact L).
  assert (Ln : length pr = length x) by (unfold pr; rewrite map2_length by exact Lr; unfold reals; apply map_length).
  pose proof (length_bound _ Hm) as B. assert (S33 : bpow radix2 (-33) <= / 64) by (apply (bpow_le radix2 (-33) (-6)); lia).
  assert (PF : Forall fmt pr).
  { unfold pr. clear. revert y. generalize (reals x) as l. induction l as [|a l IH]; intros y; [constructor|].
    destruct y as [|b y]; [constructor|]. constructor; [apply fmt_brnd|]. apply (IH y). }
  pose proof (rsum_signed pr PF) as E. rewrite Ln in E. specialize (E ltac:(lra)).
  set (n := INR (length x)) in *. assert (Hn : 0 <= n) by apply pos_INR.
  assert (W : Rabs (plain pr - total Rmult (reals x) (reals y)) <= ur * P + n * tiny /\ plain (map Rabs pr) <= (1 + ur) * P + n * tiny).
  { unfold n, P, pr. clear - U TY L. rewrite <- plain_dot. revert y L. induction x as [|a x IH]; intros [|b y] L; try discriminate.
    - unfold plain. simpl. rewrite Rminus_0_r, Rabs_R0. lra.
    - destruct (IH y) as [I1 I2]; [simpl in L; lia|]. simpl length. rewrite S_INR. unfold reals in *. simpl map. simpl map2.
      set (c := value a * value b) in *. simpl map. unfold plain in *. simpl fold_right.
      set (p1 := fold_right Rplus 0 (map2 (fun a b => brnd (a * b)) (map value x) (map value y))) in *.
      set (p2 := fold_right Rplus 0 (map2 Rmult (map value x) (map value y))) in *.
      set (p3 := fold_right Rplus 0 (map Rabs (map2 Rmult (map value x) (map value y)))) in *.
      set (p4 := fold_right Rplus 0 (map Rabs (map2 (fun a b => brnd (a * b)) (map value x) (map value y)))) in *.
      pose proof (any_err c) as A. split.
      + replace (brnd c + p1 - (c + p2)) with ((brnd c - c) + (p1 - p2)) by ring. eapply Rle_trans; [apply Rabs_triang|]. lra.
      + assert (Rabs (brnd c) <= Rabs (brnd c - c) + Rabs c) by (eapply Rle_trans; [|apply Rabs_triang]; apply Req_le; f_equal; ring). lra. }
  destruct W as [W1 W2]. assert (HP : 0 <= P) by apply plain_abs_nonneg.
  unfold dot_r. fold pr. set (T := total _ _ _) in *. set (Q := plain (map Rabs pr)) in *.
  replace (rsum pr - T) with ((rsum pr - plain pr) + (plain pr - T)) by ring. eapply Rle_trans; [apply Rabs_triang|].
  assert (Hnu : 0 <= n * ur <= / 64) by (split; [nra|lra]). assert (HE : 0 <= n * tiny) by nra. assert (HuP : 0 <= ur * P) by nra.
  assert (2 * n * ur * Q <= 2 * n * ur * ((1 + ur) * P + n * tiny)) by (apply Rmult_le_compat_l; lra).
  assert (2 * n * ur * (ur * P) <= / 2 * (ur * P)) by (replace (2 * n * ur * (ur * P)) with (2 * (n * ur) * (ur * P)) by ring; apply Rmult_le_compat_r; lra).
  assert (2 * n * ur * (n * tiny) <= / 2 * (n * tiny)) by (replace (2 * n * ur * (n * tiny)) with (2 * (n * ur) * (n * tiny)) by ring; apply Rmult_le_compat_r; lra).
  nra.
Qed.

(** *** From the parts to the distance *)
Lemma num_facts m : (Z.of_nat m <= 2 ^ 20)%Z -> 0 <= INR m * ur /\ INR m * ur <= / 8589934592 /\ INR m <= 1048576 /\ 0 <= INR m /\ 0 < ur <= / 9007199254740992.
Proof.
  intro H. assert (U := ur_pos). assert (P := pos_INR m). split; [nra|]. split; [apply (length_bound m H)|]. split.
  - rewrite INR_IZR_INZ. apply (IZR_le _ 1048576). lia.
  - split; [exact P|]. split; [exact U|]. unfold ur. right. reflexivity.
Qed.

(** All real: [a], [b], [c] are the errors relative to 1 of the norms and of their product. *)
Lemma den_core n e1 e2 e3 : 0 <= n * ur <= / 8589934592 -> n <= 1048576 -> 0 <= n -> 0 < ur <= / 9007199254740992 ->
  Rabs e1 <= (2 * n + 12) * ur -> Rabs e2 <= (2 * n + 12) * ur -> Rabs e3 <= ur ->
  Rabs ((1 + e1) * (1 + e2) * (1 + e3) - 1) <= (4 * n + 26) * ur.
Proof.
  intros H1 H2 H3 H4 E1 E2 E3. set (r := (2 * n + 12) * ur) in *.
  assert (R : 0 <= r <= / 1073741824) by (unfold r; split; nra).
  assert (R2 : r * r <= / 4 * ur).
  { apply Rle_trans with (r * / 1073741824); [apply Rmult_le_compat_l; lra|]. unfold r.
    replace ((2 * n + 12) * ur * / 1073741824) with (((2 * n + 12) * / 1073741824) * ur) by ring. apply Rmult_le_compat_r; lra. }
  assert (P : Rabs (e1 * e2) <= / 4 * ur).
  { rewrite Rabs_mult. eapply Rle_trans; [|exact R2]. apply Rmult_le_compat; auto using Rabs_pos. }
  assert (Q : Rabs ((1 + e1) * (1 + e2)) <= 5 / 4).
  { replace ((1 + e1) * (1 + e2)) with (1 + (e1 + (e2 + e1 * e2))) by ring.
    eapply Rle_trans; [apply Rabs_triang|]. rewrite Rabs_R1. pose proof (Rabs_triang e1 (e2 + e1 * e2)). pose proof (Rabs_triang e2 (e1 * e2)). lra. }
  assert (Q3 : Rabs ((1 + e1) * (1 + e2) * e3) <= 5 / 4 * ur).
  { rewrite Rabs_mult. apply Rmult_le_compat; auto using Rabs_pos. }
  replace ((1 + e1) * (1 + e2) * (1 + e3) - 1) with (e1 + (e2 + (e1 * e2 + (1 + e1) * (1 + e2) * e3))) by ring.
  pose proof (Rabs_triang e1 (e2 + (e1 * e2 + (1 + e1) * (1 + e2) * e3))).
  pose proof (Rabs_triang e2 (e1 * e2 + (1 + e1) * (1 + e2) * e3)).
  pose proof (Rabs_triang (e1 * e2) ((1 + e1) * (1 + e2) * e3)). unfold r in *. lra.
Qed.

Lemma quot_core n t s c : 0 <= n * ur <= / 8589934592 -> n <= 1048576 -> 0 <= n -> 0 < ur <= / 9007199254740992 ->
  Rabs (t - s) <= (2 * n + 4) * ur -> Rabs s <= 1 -> Rabs (c - 1) <= (4 * n + 26) * ur ->
  Rabs (t / c - s) <= (6 * n + 31) * ur /\ / 2 <= c.
Proof.
  intros H1 H2 H3 H4 T S C. assert (C' := Rabs_le_inv _ _ C).
  assert (K : (4 * n + 26) * ur <= / 536870912) by nra.
  assert (Hc : / 2 <= c) by lra. split; [|exact Hc].
  assert (W : Rabs (t - s * c) <= (6 * n + 30) * ur).
  { replace (t - s * c) with ((t - s) + (- s) * (c - 1)) by ring. eapply Rle_trans; [apply Rabs_triang|]. rewrite (Rabs_mult (- s)), Rabs_Ropp.
    assert (Rabs s * Rabs (c - 1) <= 1 * Rabs (c - 1)) by (apply Rmult_le_compat_r; [apply Rabs_pos|exact S]). lra. }
  replace (t / c - s) with ((t - s * c) / c) by (field; lra). unfold Rdiv. rewrite Rabs_mult, Rabs_inv, (Rabs_right c) by lra.
  apply (Rmult_le_reg_r c); [lra|]. rewrite Rmult_assoc, Rinv_l, Rmult_1_r by lra.
  eapply Rle_trans; [exact W|].
  apply Rle_trans with ((6 * n + 31) * ur * (1 - / 536870912)).
  - replace ((6 * n + 31) * ur * (1 - / 536870912)) with ((6 * n + 31 - (6 * n + 31) * / 536870912) * ur) by ring.
    apply Rmult_le_compat_r; lra.
  - apply Rmult_le_compat_l; [|lra]. apply Rmult_le_pos; lra.
Qed.

Lemma abs_ratio x a e : 0 < a -> Rabs (x - a) <= e * a -> exists d, x = a * (1 + d) /\ Rabs d <= e.
Proof.
  intros Ha H. exists ((x - a) / a). split; [field; lra|]. unfold Rdiv. rewrite Rabs_mult, Rabs_inv, (Rabs_right a) by lra.
  apply (Rmult_le_reg_r a); [exact Ha|]. rewrite Rmult_assoc, Rinv_l by lra. lra.
Qed.

Lemma fair_norm m x : (Z.of_nat m <= 2 ^ 20)%Z -> fair m x ->
  let N := nrm (reals x) in
  bpow radix2 (-300) <= N /\ N <= bpow radix2 310 /\
  magnitude (norm2 BA b_sqrt x) /\ exists e, value (norm2 BA b_sqrt x) = N * (1 + e) /\ Rabs e <= (2 * INR m + 12) * ur.
Proof.
  intros Hm [L [HS HN]] N. subst m. assert (N0 : 0 <= N) by apply sqrt_pos. pose proof (nrm_sq (reals x)) as NS. fold N in NS.
  assert (B1 : bpow radix2 (-300) <= N).
  { apply Rsqr_incr_0_var; [|exact N0]. unfold Rsqr. rewrite <- bpow_plus, NS. exact HN. }
  assert (B2 : N <= bpow radix2 310).
  { apply Rsqr_incr_0_var; [|apply bpow_ge_0]. unfold Rsqr. rewrite <- bpow_plus, NS.
    assert (T : total Rmult (reals x) (reals x) <= INR (length x) * bpow radix2 600).
    { clear - HS. induction HS as [|a x [_ Ha] HS IH]; [simpl; lra|]. change (reals (a :: x)) with (value a :: reals x). simpl total. simpl length. rewrite S_INR.
      assert (value a * value a <= bpow radix2 600).
      { change 600%Z with (300 + 300)%Z. rewrite bpow_plus. apply Rsqr_le_abs_1. rewrite (Rabs_right (bpow radix2 300)) by apply Rle_ge, bpow_ge_0. exact Ha. }
      lra. }
    eapply Rle_trans; [exact T|]. change (310 + 310)%Z with (20 + 600)%Z. rewrite bpow_plus. apply Rmult_le_compat_r; [apply bpow_ge_0|].
    rewrite INR_IZR_INZ. change (bpow radix2 20) with (IZR (2 ^ 20)). apply IZR_le, Hm. }
  split; [exact B1|]. split; [exact B2|]. destruct (norm2_val x Hm HS) as [M V]. split; [exact M|]. rewrite V.
  assert (PN : 0 < N) by (eapply Rlt_le_trans; [apply bpow_gt_0|exact B1]).
  apply abs_ratio; [exact PN|]. eapply Rle_trans; [apply nrm_r_err, Hm|]. fold N.
  assert (S : INR (length x) * bpow radix2 (-536) <= bpow radix2 (-52) * N).
  { apply Rle_trans with (bpow radix2 20 * bpow radix2 (-536)).
    - apply Rmult_le_compat_r; [apply bpow_ge_0|]. rewrite INR_IZR_INZ. change (bpow radix2 20) with (IZR (2 ^ 20)). apply IZR_le, Hm.
    - rewrite <- bpow_plus. apply Rle_trans with (bpow radix2 (-52) * bpow radix2 (-300)); [rewrite <- bpow_plus; apply bpow_le; lia|].
      apply Rmult_le_compat_l; [apply bpow_ge_0|exact B1]. }
  replace (bpow radix2 (-52)) with (2 * ur) in * by (unfold ur; change 2 with (bpow radix2 1); rewrite <- bpow_plus; reflexivity). lra.
Qed.

(** What is done with the product [dt] and the norms [a] and [b]. *)
Definition finish (dt a b : b64) : res b64 :=
  if eq_b BA (b_mult a b) (zero BA) then Err ZeroDivisionError
  else Ok (b_sqrt (b_mult (b_ofz 2) (b_minus (b_ofz 1) (b_div dt (b_mult a b))))).

(** [a] is close to the norm [N]. *)
Definition norm_close (m : nat) (a : b64) (N : R) : Prop :=
  bpow radix2 (-300) <= N /\ N <= bpow radix2 310 /\ magnitude a /\ exists e, value a = N * (1 + e) /\ Rabs e <= (2 * INR m + 12) * ur.
(** [dt] is close to the product [T] of vectors of norms [NX] and [NY]. *)
Definition dot_close (m : nat) (dt : b64) (T NX NY : R) : Prop :=
  finite dt /\ Rabs T <= NX * NY /\ Rabs (value dt - T) <= (2 * INR m + 4) * ur * (NX * NY).

Lemma finish_close m dt a b T NX NY : (Z.of_nat m <= 2 ^ 20)%Z -> norm_close m a NX -> norm_close m b NY -> dot_close m dt T NX NY ->
  let s := T / (NX * NY) in
  exists q, finite q /\ Rabs s <= 1 /\ Rabs (value q - s) <= (6 * INR m + 33) * ur /\
    finish dt a b = Ok (b_sqrt (b_mult (b_ofz 2) (b_minus (b_ofz 1) q))).
Proof.
  intros Hm [X1 [X2 [[FX PX] [e1 [VX E1]]]]] [Y1 [Y2 [[FY PY] [e2 [VY E2]]]]] [Ft [TP Dn]] s.
  destruct (num_facts m Hm) as [N0 [N1 [N2 [N3 N4]]]].
  assert (P300 : 0 < bpow radix2 (-300)) by apply bpow_gt_0.
  assert (PN : 0 < NX * NY) by (apply Rmult_lt_0_compat; lra).
  assert (K : (2 * INR m + 12) * ur <= / 1073741824) by nra.
  assert (A1 := Rabs_le_inv _ _ E1). assert (A2 := Rabs_le_inv _ _ E2).
  assert (L1 : bpow radix2 (-602) <= value a * value b).
  { change (-602)%Z with (-301 + -301)%Z. rewrite bpow_plus. change (-301)%Z with (-300 + -1)%Z. rewrite (bpow_plus radix2 (-300)). change (bpow radix2 (-1)) with (/ 2).
    apply Rmult_le_compat; [lra|lra|rewrite VX; apply Rmult_le_compat; lra|rewrite VY; apply Rmult_le_compat; lra]. }
  assert (U1 : value a * value b <= bpow radix2 622).
  { change 622%Z with (311 + 311)%Z. rewrite bpow_plus. change 311%Z with (310 + 1)%Z. rewrite (bpow_plus radix2 310). change (bpow radix2 1) with 2.
    apply Rmult_le_compat; [exact PX|exact PY|rewrite VX; apply Rmult_le_compat; lra|rewrite VY; apply Rmult_le_compat; lra]. }
  assert (PA : 0 < value a * value b) by (eapply Rlt_le_trans; [apply bpow_gt_0|exact L1]).
  destruct (b_mult_val a b FX FY) as [Vd Fd].
  { eapply Rle_lt_trans; [apply (brnd_abs_pow _ 622); [lia|]; change (rv a * rv b) with (value a * value b); rewrite Rabs_right by lra; exact U1|apply bpow_lt; lia]. }
  change (value (b_mult a b) = brnd (value a * value b)) in Vd. change (finite (b_mult a b)) in Fd.
  pose proof (norm_err (value a * value b)) as E3. rewrite (Rabs_right (value a * value b)) in E3 by lra.
  specialize (E3 (Rle_trans _ _ _ (bpow_le radix2 (-1022) (-602) ltac:(lia)) L1)). rewrite <- Vd in E3.
  destruct (abs_ratio _ _ _ PA E3) as [e3 [V3 B3]].
  pose proof (den_core (INR m) e1 e2 e3 (conj N0 N1) N2 N3 N4 E1 E2 B3) as C. set (c := (1 + e1) * (1 + e2) * (1 + e3)) in *.
  assert (Vc : value (b_mult a b) = NX * NY * c) by (rewrite V3, VX, VY; unfold c; ring).
  assert (Vs : T = s * (NX * NY)) by (unfold s; field; split; lra).
  assert (Hs : Rabs s <= 1).
  { unfold s, Rdiv. rewrite Rabs_mult, Rabs_inv, (Rabs_right (NX * NY)) by lra. apply (Rmult_le_reg_r (NX * NY)); [exact PN|].
    rewrite Rmult_assoc, Rinv_l, Rmult_1_r, Rmult_1_l by lra. lra. }
  assert (Ht : Rabs (value dt / (NX * NY) - s) <= (2 * INR m + 4) * ur).
  { unfold s. replace (value dt / (NX * NY) - T / (NX * NY)) with ((value dt - T) / (NX * NY)) by (field; split; lra).
    unfold Rdiv. rewrite Rabs_mult, Rabs_inv, (Rabs_right (NX * NY)) by lra. apply (Rmult_le_reg_r (NX * NY)); [exact PN|].
    rewrite Rmult_assoc, Rinv_l by lra. lra. }
  destruct (quot_core (INR m) (value dt / (NX * NY)) s c (conj N0 N1) N2 N3 N4 Ht Hs C) as [Q Hc].
  assert (Pd : 0 < value (b_mult a b)) by (rewrite Vc; apply Rmult_lt_0_compat; lra).
  assert (Vq : value dt / value (b_mult a b) = value dt / (NX * NY) / c) by (rewrite Vc; field; split; [|split]; lra).
  rewrite <- Vq in Q. set (q0 := value dt / value (b_mult a b)) in *.
  assert (K2 : (6 * INR m + 31) * ur <= / 268435456) by nra.
  assert (Q1 : Rabs q0 <= 1 + / 268435456).
  { replace q0 with ((q0 - s) + s) by ring. eapply Rle_trans; [apply Rabs_triang|]. lra. }
  destruct (b_div_val dt (b_mult a b) Ft) as [Vv Fv].
  { change (value (b_mult a b) <> 0). apply Rgt_not_eq, Pd. }
  { change (Rabs (brnd q0) < ovf). eapply Rle_lt_trans; [apply (brnd_abs_pow _ 1); [lia|change (bpow radix2 1) with 2; lra]|apply bpow_lt; lia]. }
  change (value (b_div dt (b_mult a b)) = brnd q0) in Vv. exists (b_div dt (b_mult a b)).
  split; [exact Fv|]. split; [exact Hs|]. split.
  - rewrite Vv. pose proof (any_err q0) as AE. replace (brnd q0 - s) with ((brnd q0 - q0) + (q0 - s)) by ring. eapply Rle_trans; [apply Rabs_triang|].
    assert (TU : tiny <= ur * / 1024).
    { unfold tiny, ur. change (/ 1024) with (bpow radix2 (-10)). rewrite <- bpow_plus. apply bpow_le. lia. }
    assert (ur * Rabs q0 <= ur * (1 + / 268435456)) by (apply Rmult_le_compat_l; lra). lra.
  - unfold finish, eq_b. change (le_b BA) with b_le. rewrite zero_BA.
    assert (Z2 : b_le (b_mult a b) b_zero = false).
    { rewrite b_le_val; [|exact Fd|reflexivity]. change (Rleb (value (b_mult a b)) 0 = false). unfold Rleb. destruct (Rle_dec _ _); [lra|reflexivity]. }
    rewrite Z2. reflexivity.
Qed.

Lemma sqrt_neg a : finite a -> value a < 0 -> b_sqrt a = B754_nan.
Proof.
  intros F N. destruct a as [s|s| |s mm e Hb]; try discriminate; [unfold value, B2R in N; lra|].
  destruct s; [reflexivity|]. exfalso. pose proof (F2R_gt_0 radix2 (Float radix2 (Zpos mm) e) ltac:(simpl; lia)) as G.
  unfold value, B2R in N. simpl in N. simpl in G. lra.
Qed.

Lemma finish_accuracy m dt a b x y D : (Z.of_nat m <= 2 ^ 20)%Z ->
  norm_close m a (nrm x) -> norm_close m b (nrm y) -> dot_close m dt (total Rmult x y) (nrm x) (nrm y) -> is_cosine x y D ->
  exists d, finish dt a b = Ok d /\
    ((d = B754_nan /\ D * D <= (6 * INR m + 34) * bpow radix2 (-52)) \/
     (magnitude d /\ Rabs (value d * value d - D * D) <= (6 * INR m + 40) * bpow radix2 (-52))).
Proof.
  intros Hm Ca Cb Cd [D0 [nx [ny [s [Px [Ex [Py [Ey [Es ED]]]]]]]]].
  assert (Nx : nx = nrm x) by (unfold nrm; rewrite <- Ex; symmetry; apply sqrt_square; lra).
  assert (Ny : ny = nrm y) by (unfold nrm; rewrite <- Ey; symmetry; apply sqrt_square; lra).
  destruct (finish_close m dt a b _ _ _ Hm Ca Cb Cd) as [q [Fq [S1 [Q E]]]]. rewrite <- Nx, <- Ny, <- Es in *.
  replace (s * (nx * ny) / (nx * ny)) with s in * by (field; split; lra).
  destruct (num_facts m Hm) as [N0 [N1 [N2 [N3 N4]]]]. set (n := INR m) in *.
  replace (bpow radix2 (-52)) with (2 * ur) by (unfold ur; change 2 with (bpow radix2 1); rewrite <- bpow_plus; reflexivity).
  assert (K : (6 * n + 33) * ur <= / 268435456) by nra.
  assert (S' := Rabs_le_inv _ _ S1). assert (Q' := Rabs_le_inv _ _ Q).
  destruct (b_ofz_val 1 eq_refl) as [F1 V1], (b_ofz_val 2 eq_refl) as [F2 V2].
  pose proof (minus_err 1 (value q)) as ME. assert (f1 : fmt 1) by (rewrite <- V1; apply fmt_value). specialize (ME f1 (fmt_value q)).
  assert (AB : Rabs (1 - value q) <= 2 + / 16) by (apply Rabs_le; lra).
  assert (T1 : Rabs (brnd (1 - value q) - (1 - value q)) <= (2 + / 16) * ur) by (eapply Rle_trans; [exact ME|]; rewrite Rmult_comm; apply Rmult_le_compat_r; lra).
  destruct (b_minus_val (b_ofz 1) q F1 Fq) as [Vm Fm].
  { fold (value (b_ofz 1)) (value q). rewrite V1. eapply Rle_lt_trans; [apply (brnd_abs_pow _ 2); [lia|change (bpow radix2 2) with 4; lra]|apply bpow_lt; lia]. }
  fold (value (b_ofz 1)) (value q) (value (b_minus (b_ofz 1) q)) in Vm. rewrite V1 in Vm. change (finite (b_minus (b_ofz 1) q)) in Fm.
  set (t := b_minus (b_ofz 1) q) in *. rewrite <- Vm in T1. assert (T1' := Rabs_le_inv _ _ T1).
  assert (EW : brnd (2 * value t) = 2 * value t) by (apply round_generic; [apply valid_rnd_N|apply fmt_double, fmt_value]).
  destruct (b_mult_val (b_ofz 2) t F2 Fm) as [Vw Fw].
  { fold (value (b_ofz 2)) (value t). rewrite V2, EW. apply Rle_lt_trans with (bpow radix2 3); [change (bpow radix2 3) with 8; apply Rabs_le; lra|apply bpow_lt; lia]. }
  fold (value (b_ofz 2)) (value t) (value (b_mult (b_ofz 2) t)) in Vw. rewrite V2, EW in Vw. change (finite (b_mult (b_ofz 2) t)) in Fw.
  set (w := b_mult (b_ofz 2) t) in *. exists (b_sqrt w). split; [exact E|].
  destruct (Rlt_or_le (value w) 0) as [Neg|Pos].
  - left. split; [apply sqrt_neg; assumption|].
    assert (NT : value t < 0) by lra.
    assert (NQ : 1 - value q < 0).
    { destruct (Rlt_or_le (1 - value q) 0) as [G|G]; [exact G|]. apply brnd_nonneg in G. rewrite <- Vm in G. lra. }
    rewrite ED. lra.
  - right. destruct (sqrt_val w (conj Fw Pos)) as [Md Vd]. split; [exact Md|]. rewrite Vd.
    pose proof (sqrt_err (value w) (fmt_value w) Pos) as SE. pose proof (sqrt_sqrt _ Pos) as SS. pose proof (sqrt_pos (value w)) as SP.
    set (r := sqrt (value w)) in *. set (d := brnd r) in *. apply Rabs_le_inv in SE.
    assert (WB : value w <= 17 / 4) by lra.
    assert (DW : Rabs (d * d - value w) <= (17 / 4) * (9 / 4) * ur).
    { replace (d * d - value w) with ((d - r) * (d + r)) by (rewrite <- SS; ring). rewrite Rabs_mult.
      apply Rle_trans with ((ur * r) * ((2 + ur) * r)).
      - apply Rmult_le_compat; [apply Rabs_pos..|apply Rabs_le; lra|]. apply Rabs_le. nra.
      - replace (ur * r * ((2 + ur) * r)) with ((r * r) * (2 + ur) * ur) by ring. rewrite SS. apply Rmult_le_compat_r; [lra|].
        apply Rmult_le_compat; lra. }
    apply Rabs_le_inv in DW. rewrite ED. apply Rabs_le. lra.
Qed.

Lemma fair_dot m x y dt : (Z.of_nat m <= 2 ^ 20)%Z -> fair m x -> fair m y -> finite dt ->
  (let P := plain (map Rabs (map2 Rmult (reals x) (reals y))) in
   Rabs (value dt - total Rmult (reals x) (reals y)) <= (2 * INR m + 2) * ur * P + 2 * INR m * tiny) ->
  dot_close m dt (total Rmult (reals x) (reals y)) (nrm (reals x)) (nrm (reals y)).
Proof.
  intros Hm Fx Fy Ft De. destruct (fair_norm m x Hm Fx) as [X1 [X2 _]], (fair_norm m y Hm Fy) as [Y1 [Y2 _]].
  destruct Fx as [Lx [Sx _]], Fy as [Ly [Sy _]]. destruct (num_facts m Hm) as [N0 [N1 [N2 [N3 N4]]]].
  set (NX := nrm (reals x)) in *. set (NY := nrm (reals y)) in *.
  assert (P300 : 0 < bpow radix2 (-300)) by apply bpow_gt_0.
  assert (PN : 0 < NX * NY) by (apply Rmult_lt_0_compat; lra). cbv zeta in De.
  set (P := plain (map Rabs (map2 Rmult (reals x) (reals y)))) in *. set (T := total Rmult (reals x) (reals y)) in *.
  assert (HP : P <= NX * NY).
  { apply product_bound; [unfold reals; rewrite !map_length; congruence|fold NX; lra|fold NY; lra]. }
  assert (TP : Rabs T <= P) by (unfold T, P; rewrite <- plain_dot; apply plain_abs_le).
  assert (Tn : 2 * INR m * tiny <= ur * (NX * NY)).
  { apply Rle_trans with (bpow radix2 (21 + -1075)).
    - rewrite bpow_plus. apply Rmult_le_compat_r; [apply bpow_ge_0|]. change (bpow radix2 21) with 2097152. lra.
    - apply Rle_trans with (bpow radix2 (-53 + (-300 + -300))); [apply bpow_le; lia|]. rewrite bpow_plus. apply Rmult_le_compat_l; [apply bpow_ge_0|].
      rewrite bpow_plus. apply Rmult_le_compat; lra. }
  assert (Dn : Rabs (value dt - T) <= (2 * INR m + 4) * ur * (NX * NY)).
  { eapply Rle_trans; [exact De|]. assert ((2 * INR m + 2) * ur * P <= (2 * INR m + 2) * ur * (NX * NY)) by (apply Rmult_le_compat_l; [nra|exact HP]). nra. }
  split; [exact Ft|]. split; [lra|exact Dn].
Qed.

Lemma cosine_accuracy m x y D : (Z.of_nat m <= 2 ^ 20)%Z -> fair m x -> fair m y -> is_cosine (reals x) (reals y) D ->
  exists d, cosine BA b_sqrt x y = Ok d /\
    ((d = B754_nan /\ D * D <= (6 * INR m + 34) * bpow radix2 (-52)) \/
     (magnitude d /\ Rabs (value d * value d - D * D) <= (6 * INR m + 40) * bpow radix2 (-52))).
Proof.
  intros Hm Fx Fy HD. change (cosine BA b_sqrt x y) with (finish (dot BA x y) (norm2 BA b_sqrt x) (norm2 BA b_sqrt y)).
  apply (finish_accuracy m _ _ _ (reals x) (reals y)); auto; try (apply fair_norm; assumption).
  assert (Lx := proj1 Fx). assert (Ly := proj1 Fy).
  destruct (dot_val x y) as [Ft Vt]; [congruence|rewrite Lx; exact Hm|apply Fx|apply Fy|].
  apply fair_dot; auto. rewrite <- Lx, Vt. apply dot_r_err; [congruence|rewrite Lx; exact Hm].
Qed.

(** *** Symmetry *)
Lemma b_mult_comm a b : b_mult a b = b_mult b a.
Proof.
  apply B2SF_inj. unfold b_mult.
  destruct a as [s|s| |s m e H], b as [s'|s'| |s' m' e' H']; simpl; try reflexivity; try (rewrite xorb_comm; reflexivity).
  rewrite !B2SF_SF2B. rewrite xorb_comm, Pos.mul_comm, Z.add_comm. reflexivity.
Qed.
Lemma cosine_comm x y : cosine BA b_sqrt x y = cosine BA b_sqrt y x.
Proof.
  unfold cosine. change (mul BA) with b_mult. change (num BA) with b64. rewrite (b_mult_comm (norm2 BA b_sqrt y)).
  assert (E : dot BA y x = dot BA x y); [|rewrite E; reflexivity].
  unfold dot. f_equal. change (mul BA) with b_mult. clear. revert y. induction x as [|a x IH]; intros [|b y]; try reflexivity.
  simpl. rewrite IH. f_equal. apply b_mult_comm.
Qed.
