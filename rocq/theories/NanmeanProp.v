(** The average of the values that are not NaN, in double precision. *)
From Coq Require Import String Permutation Reals Lra Psatz.
From Flocq Require Import Core BinarySingleNaN Relative Plus_error.
From Verif Require Import Base ModelArith ModelFloat FloatFacts SpecDouble SpecMetric SpecMetrics SpecCubical VPProp
  FloatMetric FloatAccuracy FloatGrid ModelFastmath FastmathProp ModelNanmean SpecNanmean.
Open Scope R_scope.

Lemma nan_cases (x : b64) : x = B754_nan \/ x <> B754_nan.
Proof. destruct x; auto; right; discriminate. Qed.
Lemma b_nan_iff x : b_nan x = true <-> x = B754_nan.
Proof. destruct x; simpl; split; intro; try discriminate; reflexivity. Qed.
Lemma finite_not_nan (x : b64) : finite x -> x <> B754_nan.
Proof. intros F ->. discriminate F. Qed.
Lemma not_nan_b x : x <> B754_nan -> b_nan x = false.
Proof. intro H. destruct (b_nan x) eqn:E; [|reflexivity]. apply b_nan_iff in E. contradiction. Qed.

Lemma present_total xs : exists rs, present xs rs.
Proof.
  induction xs as [|x xs [rs IH]]; [exists []; constructor|].
  destruct (nan_cases x) as [->|H]; [exists rs|exists (value x :: rs)]; constructor; assumption.
Qed.

Lemma replace_small k xs : tame k xs -> Forall (small k) (map replace_nan xs).
Proof.
  intro H. apply Forall_map. eapply Forall_impl; [|exact H]. intros x [->|[F B]].
  - split; [reflexivity|]. change (value (replace_nan B754_nan)) with 0. rewrite Rabs_R0. apply bpow_ge_0.
  - unfold replace_nan. rewrite (not_nan_b x) by (apply finite_not_nan, F). split; assumption.
Qed.

(** *** What is added and counted *)
Lemma present_count xs rs : present xs rs -> count xs = length rs.
Proof.
  intro H. induction H as [|xs rs H IH|x xs rs N H IH]; [reflexivity|exact IH|].
  unfold count in *. simpl. rewrite (not_nan_b x N). simpl. f_equal. exact IH.
Qed.
Lemma present_sum xs rs (f : R -> R) : f 0 = 0 -> present xs rs ->
  plain (map (fun x => f (value x)) (map replace_nan xs)) = plain (map f rs).
Proof.
  intros F0 H. unfold plain. induction H as [|xs rs H IH|x xs rs N H IH]; [reflexivity| |].
  - simpl. change (value (replace_nan B754_nan)) with 0. rewrite F0, Rplus_0_l. exact IH.
  - simpl. unfold replace_nan at 1. rewrite (not_nan_b x N), IH. reflexivity.
Qed.
Lemma present_length xs rs : present xs rs -> (length rs <= length xs)%nat.
Proof. intro H. induction H; simpl; lia. Qed.

Lemma map_at {T} (g : b64 -> T) v : map (fun i => g (at_ v i)) (seq 0 (length v)) = map g v.
Proof.
  unfold at_. induction v as [|a v IH]; [reflexivity|]. simpl length. simpl seq. simpl map. f_equal.
  rewrite <- seq_shift, map_map. exact IH.
Qed.
Lemma exact_plan (f : R -> R) p v : plan_for (length v) p -> exact_sum f p (rat v) = plain (map (fun x => f (value x)) v).
Proof.
  intro H. unfold exact_sum. rewrite (plain_perm _ (map (fun i => f (rat v i)) (seq 0 (length v)))).
  - f_equal. exact (map_at (fun x => f (value x)) v).
  - apply Permutation_map, H.
Qed.
Lemma plan_size n p : plan_for n p -> size p = n.
Proof. intro H. unfold size. rewrite (Permutation_length H). apply seq_length. Qed.

(** *** The sum, as a rounded real number *)
Fixpoint r_sum (p : plan) (r : nat -> R) : R :=
  match p with
  | Nothing => 0
  | Item i => r i
  | Join p q => brnd (r_sum p r + r_sum q r)
  | Fused p i => brnd (r_sum p r + r i)
  end.

Lemma bounded_round_abs n k s : (-1074 <= k <= 1003)%Z -> (Z.of_nat n <= 2 ^ 20)%Z -> Rabs s <= INR n * bpow radix2 k ->
  Rabs (brnd s) <= INR n * bpow radix2 k /\ Rabs (brnd s) < ovf.
Proof.
  intros Hk Hn Hs. destruct (bounded_round n k (Rabs s) Hk Hn) as [B O]; [split; [apply Rabs_pos|exact Hs]|].
  rewrite brnd_abs in B, O. rewrite Rabs_Rabsolu in O. split; [apply B|exact O].
Qed.

Lemma sum_val k p v : (-1074 <= k <= 1003)%Z -> Forall (small k) v -> (Z.of_nat (size p) <= 2 ^ 20)%Z ->
  finite (sum_plan p v) /\ value (sum_plan p v) = r_sum p (rat v) /\ Rabs (value (sum_plan p v)) <= INR (size p) * bpow radix2 k.
Proof.
  intros Hk Hv. induction p as [|i|p IHp q IHq|p IHp i]; intro Hs.
  - simpl. change (value b_zero) with 0. unfold size. simpl. rewrite Rabs_R0. repeat split; lra.
  - destruct (at_small k v i Hv) as [F B]. simpl. split; [exact F|]. split; [reflexivity|]. unfold size. simpl. rewrite Rmult_1_l. exact B.
  - rewrite size_join in *. destruct IHp as [F1 [V1 B1]]; [lia|]. destruct IHq as [F2 [V2 B2]]; [lia|].
    destruct (bounded_round_abs (size p + size q) k (value (sum_plan p v) + value (sum_plan q v))) as [B O]; [lia|exact Hs| |].
    { rewrite plus_INR. eapply Rle_trans; [apply Rabs_triang|]. lra. }
    destruct (b_plus_val _ _ F1 F2 O) as [V F]. simpl.
    split; [exact F|]. split; [|unfold value in *; rewrite V; exact B].
    rewrite <- V1, <- V2. exact V.
  - rewrite size_fused in *. destruct IHp as [F1 [V1 B1]]; [lia|]. destruct (at_small k v i Hv) as [F0 B0].
    destruct (bounded_round_abs (S (size p)) k (value (sum_plan p v) + value (at_ v i))) as [B O]; [lia|exact Hs| |].
    { rewrite S_INR. eapply Rle_trans; [apply Rabs_triang|]. lra. }
    destruct (b_plus_val _ _ F1 F0 O) as [V F]. simpl.
    split; [exact F|]. split; [|unfold value in *; rewrite V; exact B].
    rewrite <- V1. exact V.
Qed.

Lemma fmt_r_sum p r : (forall i, fmt (r i)) -> fmt (r_sum p r).
Proof. intro H. destruct p; simpl; auto using fmt_0, fmt_brnd. Qed.
Lemma exact_abs p r : Rabs (exact_sum (fun a => a) p r) <= exact_sum Rabs p r.
Proof.
  unfold exact_sum, plain. induction (items p) as [|i l IH]; simpl; [rewrite Rabs_R0; lra|].
  eapply Rle_trans; [apply Rabs_triang|]. lra.
Qed.

(** One more addition. *)
Lemma sum_step a b U0 T A B m n : fmt a -> fmt b -> 0 <= A -> 0 <= B -> Rabs U0 <= A -> Rabs T <= B ->
  Rabs (a - U0) <= ((1 + ur) ^ m - 1) * A -> Rabs (b - T) <= ((1 + ur) ^ n - 1) * B ->
  forall k, (S m <= k)%nat -> (S n <= k)%nat ->
  Rabs (brnd (a + b) - (U0 + T)) <= ((1 + ur) ^ k - 1) * (A + B).
Proof.
  intros Fa Fb PA PB HS HT Ha Hb k Hm Hn. destruct k as [|k]; [lia|].
  pose proof ur_pos as U. pose proof (plus_err a b Fa Fb) as E.
  assert (Pm : (1 + ur) ^ m <= (1 + ur) ^ k) by (apply Rle_pow; [lra|lia]).
  assert (Pn : (1 + ur) ^ n <= (1 + ur) ^ k) by (apply Rle_pow; [lra|lia]).
  set (P := (1 + ur) ^ k) in *.
  assert (Ea : Rabs (a - U0) <= (P - 1) * A) by (eapply Rle_trans; [exact Ha|]; apply Rmult_le_compat_r; lra).
  assert (Eb : Rabs (b - T) <= (P - 1) * B) by (eapply Rle_trans; [exact Hb|]; apply Rmult_le_compat_r; lra).
  assert (D : Rabs ((a + b) - (U0 + T)) <= (P - 1) * (A + B)).
  { replace (a + b - (U0 + T)) with ((a - U0) + (b - T)) by ring. eapply Rle_trans; [apply Rabs_triang|]. lra. }
  assert (M : Rabs (a + b) <= P * (A + B)).
  { replace (a + b) with ((a + b - (U0 + T)) + (U0 + T)) by ring. eapply Rle_trans; [apply Rabs_triang|].
    pose proof (Rabs_triang U0 T). lra. }
  replace (brnd (a + b) - (U0 + T)) with ((brnd (a + b) - (a + b)) + ((a + b) - (U0 + T))) by ring.
  eapply Rle_trans; [apply Rabs_triang|]. simpl. fold P.
  assert (ur * Rabs (a + b) <= ur * (P * (A + B))) by (apply Rmult_le_compat_l; lra). lra.
Qed.

Lemma empty_plan p r : size p = 0%nat -> (forall i, fmt (r i)) -> r_sum p r = 0.
Proof.
  intros H F. induction p as [|i|p IHp q IHq|p IHp i]; try reflexivity.
  - discriminate H.
  - rewrite size_join in H. simpl. rewrite IHp, IHq by lia. rewrite Rplus_0_l. apply brnd_0.
  - discriminate H.
Qed.
Lemma empty_exact f p r : size p = 0%nat -> exact_sum f p r = 0.
Proof. unfold size, exact_sum. intro H. destruct (items p); [reflexivity|discriminate]. Qed.
Lemma brnd_fmt x : fmt x -> brnd x = x.
Proof. intro H. unfold brnd. apply round_generic; [auto with typeclass_instances|exact H]. Qed.

Lemma r_sum_err p r : (forall i, fmt (r i)) ->
  Rabs (r_sum p r - exact_sum (fun a => a) p r) <= ((1 + ur) ^ size p - 1) * exact_sum Rabs p r.
Proof.
  intro F. pose proof ur_pos as U.
  assert (Pos : forall n, 0 <= (1 + ur) ^ n - 1).
  { intro n. pose proof (pow_R1_Rle (1 + ur) n). lra. }
  assert (Z1 : forall a, Rabs (a - a) <= 0) by (intro a; rewrite Rminus_diag_eq, Rabs_R0 by reflexivity; lra).
  induction p as [|i|p IHp q IHq|p IHp i].
  - unfold exact_sum, size. simpl. eapply Rle_trans; [apply Z1|]. lra.
  - unfold exact_sum, size, plain. simpl. rewrite !Rplus_0_r. eapply Rle_trans; [apply Z1|].
    apply Rmult_le_pos; [|apply Rabs_pos]. lra.
  - rewrite !exact_join, size_join. simpl.
    assert (Na : forall p, 0 <= exact_sum Rabs p r) by (intro; apply exact_nonneg; apply Rabs_pos).
    destruct (Nat.eq_dec (size p) 0) as [E|E].
    { rewrite (empty_plan p r E F), !(empty_exact _ p r E), !Rplus_0_l, E. simpl.
      rewrite brnd_fmt by (apply fmt_r_sum, F). exact IHq. }
    destruct (Nat.eq_dec (size q) 0) as [E'|E'].
    { rewrite (empty_plan q r E' F), !(empty_exact _ q r E'), !Rplus_0_r, E', Nat.add_0_r.
      rewrite brnd_fmt by (apply fmt_r_sum, F). exact IHp. }
    apply (sum_step _ _ _ _ _ _ (size p) (size q)); auto using fmt_r_sum, exact_abs; lia.
  - rewrite !exact_fused, size_fused. simpl r_sum.
    rewrite (Rplus_comm (r i)), (Rplus_comm (Rabs (r i))).
    assert (Na : 0 <= exact_sum Rabs p r) by (apply exact_nonneg; apply Rabs_pos).
    destruct (Nat.eq_dec (size p) 0) as [E|E].
    { rewrite (empty_plan p r E F), !(empty_exact _ p r E), !Rplus_0_l, brnd_fmt by apply F.
      eapply Rle_trans; [apply Z1|]. apply Rmult_le_pos; [apply Pos|apply Rabs_pos]. }
    apply (sum_step _ _ _ _ _ _ (size p) 0); auto using fmt_r_sum, exact_abs, Rabs_pos; try lra; try lia.
    eapply Rle_trans; [apply Z1|]. simpl. lra.
Qed.

(** Sums of integers that stay below [2 ^ 53] are exact. *)
Lemma fmt_int z : (Z.abs z <= 2 ^ 53)%Z -> fmt (IZR z).
Proof.
  intro H. destruct (Z.eq_dec (Z.abs z) (2 ^ 53)) as [X|X].
  { assert (Q : forall s, (Z.abs s = 1)%Z -> fmt (IZR (s * 2 ^ 53))).
    { intros s Hs. rewrite mult_IZR. change (IZR (2 ^ 53)) with (bpow radix2 53).
      rewrite <- (brnd_int_pow s 53) by lia. apply fmt_brnd. }
    destruct (Z.abs_eq_or_opp z) as [Y|Y].
    - replace z with (1 * 2 ^ 53)%Z by lia. apply Q. reflexivity.
    - replace z with (-1 * 2 ^ 53)%Z by lia. apply Q. reflexivity. }
  assert (E : brnd (IZR z * bpow radix2 0) = IZR z * bpow radix2 0) by (apply brnd_int_pow; lia).
  simpl bpow in E. rewrite Rmult_1_r in E. rewrite <- E. apply fmt_brnd.
Qed.
Lemma exact_int p r : (forall i, is_integer (r i)) -> is_integer (exact_sum (fun a => a) p r).
Proof.
  intro H. unfold exact_sum, plain. induction (items p) as [|i l [z E]]; simpl; [exists 0%Z; reflexivity|].
  destruct (H i) as [y Ey]. exists (y + z)%Z. rewrite plus_IZR, <- E, <- Ey. reflexivity.
Qed.
Lemma r_sum_int p r : (forall i, is_integer (r i)) -> exact_sum Rabs p r <= IZR (2 ^ 53) ->
  r_sum p r = exact_sum (fun a => a) p r.
Proof.
  intros H. assert (Na : forall p, 0 <= exact_sum Rabs p r) by (intro; apply exact_nonneg; apply Rabs_pos).
  assert (Fm : forall p, exact_sum Rabs p r <= IZR (2 ^ 53) -> fmt (exact_sum (fun a => a) p r)).
  { intros q B. destruct (exact_int q r H) as [z E]. rewrite E. apply fmt_int. apply le_IZR. rewrite abs_IZR, <- E.
    eapply Rle_trans; [apply exact_abs|exact B]. }
  induction p as [|i|p IHp q IHq|p IHp i]; intro B.
  - reflexivity.
  - unfold exact_sum, plain. simpl. ring.
  - rewrite exact_join in B. pose proof (Na p). pose proof (Na q). simpl. rewrite IHp, IHq by lra. rewrite <- exact_join.
    apply brnd_fmt, Fm. rewrite exact_join. lra.
  - rewrite exact_fused in B. pose proof (Na p). pose proof (Rabs_pos (r i)). simpl. rewrite IHp by lra.
    rewrite Rplus_comm, <- (exact_fused (fun a => a)).
    apply brnd_fmt, Fm. rewrite exact_fused. lra.
Qed.

(** *** The average *)
Section Mean.
Variable order : nat -> plan.
Hypothesis Ord : forall n, plan_for n (order n).
Variables (xs : list b64) (rs : list R).
Hypothesis Ta : tame 1000 xs.
Hypothesis Fw : few xs.
Hypothesis Pr : present xs rs.

Let p := order (length xs).
Let v := map replace_nan xs.
Let q := r_sum p (rat v) / INR (length rs).

Lemma p_size : size p = length xs.
Proof. apply plan_size, Ord. Qed.
Lemma p_plan : plan_for (length v) p.
Proof. unfold v. rewrite map_length. apply Ord. Qed.
Lemma v_small : Forall (small 1000) v.
Proof. apply replace_small, Ta. Qed.
Lemma v_fmt i : fmt (rat v i).
Proof. apply fmt_value. Qed.
Lemma p_exact (f : R -> R) : f 0 = 0 -> exact_sum f p (rat v) = plain (map f rs).
Proof. intro F. rewrite exact_plan by exact p_plan. apply present_sum; assumption. Qed.
Lemma s_val : finite (sum_plan p v) /\ value (sum_plan p v) = r_sum p (rat v) /\
  Rabs (value (sum_plan p v)) <= INR (length xs) * bpow radix2 1000.
Proof. rewrite <- p_size. apply sum_val; [lia|exact v_small|rewrite p_size; exact Fw]. Qed.

Lemma nanmean_val : rs <> [] -> exists r, nanmean order xs = Ok r /\ finite r /\ value r = brnd q.
Proof.
  intro Ne. destruct s_val as [F [V B]]. fold p v in F, V, B.
  assert (C : (1 <= length rs)%nat) by (destruct rs; [contradiction|simpl; lia]).
  pose proof (present_length xs rs Pr) as L. unfold few in Fw.
  destruct (b_ofz_val (Z.of_nat (length rs))) as [Fc Vc]; [rewrite Z.abs_eq by lia; lia|].
  rewrite <- INR_IZR_INZ in Vc.
  assert (C1 : 1 <= INR (length rs)) by (change 1 with (INR 1); apply le_INR, C).
  assert (Q : Rabs q <= INR (length xs) * bpow radix2 1000).
  { unfold q. rewrite <- V. unfold Rdiv. rewrite Rabs_mult, (Rabs_right (/ _)) by (apply Rle_ge, Rlt_le, Rinv_0_lt_compat; lra).
    eapply Rle_trans; [|exact B]. rewrite <- (Rmult_1_r (Rabs (value (sum_plan p v)))) at 2.
    apply Rmult_le_compat_l; [apply Rabs_pos|]. rewrite <- Rinv_1. apply Rinv_le_contravar; lra. }
  destruct (bounded_round_abs (length xs) 1000 q) as [_ O]; [lia|exact Fw|exact Q|].
  destruct (b_div_val (sum_plan p v) (b_ofz (Z.of_nat (length rs))) F) as [Vr Fr].
  { unfold value in Vc. rewrite Vc. lra. }
  { unfold value in *. rewrite V, Vc. exact O. }
  exists (b_div (sum_plan p v) (b_ofz (Z.of_nat (length rs)))). unfold nanmean. rewrite (present_count xs rs Pr).
  split; [reflexivity|]. split; [exact Fr|]. unfold value in *. rewrite Vr, V, Vc. reflexivity.
Qed.

Lemma mean_close B : rs <> [] -> Forall (fun r => Rabs r <= B) rs ->
  Rabs (brnd q - mean rs) <= mean_error (length xs) B.
Proof.
  intros Ne HB.
  assert (C : (1 <= length rs)%nat) by (destruct rs; [contradiction|simpl; lia]).
  assert (C1 : 1 <= INR (length rs)) by (change 1 with (INR 1); apply le_INR, C).
  set (c := INR (length rs)) in *.
  assert (PB : 0 <= B). { destruct rs as [|r l]; [contradiction|]. inversion HB; subst. pose proof (Rabs_pos r). lra. }
  assert (A : plain (map Rabs rs) <= c * B).
  { clear - HB. unfold c, plain. induction HB as [|r l H HB IH]; [simpl; lra|]. simpl length. rewrite S_INR. simpl. lra. }
  assert (A0 : 0 <= plain (map Rabs rs)).
  { apply plain_nonneg. apply Forall_map, Forall_forall. intros; apply Rabs_pos. }
  pose proof (r_sum_err p (rat v) v_fmt) as E. rewrite p_size in E.
  rewrite (p_exact Rabs Rabs_R0), (p_exact (fun a => a) eq_refl), map_id in E.
  pose proof (length_bound (length xs) Fw) as LB. pose proof ur_pos as U.
  assert (Hf : INR (length xs) * ur <= / 2).
  { eapply Rle_trans; [exact LB|]. change (/ 2) with (bpow radix2 (-1)). apply bpow_le. lia. }
  pose proof (pow_up (length xs) Hf) as PU. set (n := INR (length xs)) in *.
  assert (N0 : 0 <= n) by apply pos_INR.
  assert (E1 : Rabs (r_sum p (rat v) - plain rs) <= 2 * n * ur * (c * B)).
  { eapply Rle_trans; [exact E|]. apply Rmult_le_compat; try lra.
    pose proof (pow_R1_Rle (1 + ur) (length xs)). lra. }
  assert (M0 : Rabs (plain rs) <= c * B).
  { eapply Rle_trans; [|exact A]. clear. unfold plain. induction rs as [|r l IH]; simpl; [rewrite Rabs_R0; lra|].
    eapply Rle_trans; [apply Rabs_triang|]. lra. }
  assert (I0 : 0 < / c) by (apply Rinv_0_lt_compat; lra).
  assert (E2 : Rabs (q - mean rs) <= 2 * n * ur * B).
  { unfold q, mean. change (total_of rs) with (plain rs). fold c. replace (r_sum p (rat v) / c - plain rs / c) with ((r_sum p (rat v) - plain rs) * / c) by (unfold Rdiv; ring).
    rewrite Rabs_mult, (Rabs_right (/ c)) by lra. replace (2 * n * ur * B) with (2 * n * ur * (c * B) * / c) by (field; lra).
    apply Rmult_le_compat_r; lra. }
  assert (M1 : Rabs (mean rs) <= B).
  { unfold mean. change (total_of rs) with (plain rs). fold c. unfold Rdiv. rewrite Rabs_mult, (Rabs_right (/ c)) by lra.
    replace B with (c * B * / c) by (field; lra). apply Rmult_le_compat_r; lra. }
  assert (Q2 : Rabs q <= 2 * B).
  { replace q with ((q - mean rs) + mean rs) by ring. eapply Rle_trans; [apply Rabs_triang|].
    assert (2 * n * ur * B <= 1 * B) by (apply Rmult_le_compat_r; lra). lra. }
  pose proof (any_err q) as E3.
  replace (brnd q - mean rs) with ((brnd q - q) + (q - mean rs)) by ring.
  eapply Rle_trans; [apply Rabs_triang|]. unfold mean_error. fold n. rewrite <- two_u.
  assert (ur * Rabs q <= ur * (2 * B)) by (apply Rmult_le_compat_l; lra).
  change (bpow radix2 (-1075)) with tiny. lra.
Qed.

Lemma v_int : Forall is_integer rs -> forall i, is_integer (rat v i).
Proof.
  intros H i. unfold rat, at_, v. clear - Pr H. revert i. induction Pr as [|l rs' P IH|x l rs' N P IH]; intro i; simpl.
  - destruct i; exists 0%Z; reflexivity.
  - destruct i; [exists 0%Z; reflexivity|]. apply IH; assumption.
  - inversion H; subst. destruct i; [|apply IH; assumption]. unfold replace_nan. rewrite (not_nan_b x N). assumption.
Qed.
Lemma mean_int : Forall is_integer rs -> total_of (map Rabs rs) <= IZR (2 ^ 53) -> brnd q = brnd (mean rs).
Proof.
  intros H B. unfold q, mean. rewrite (r_sum_int p (rat v) (v_int H)).
  - rewrite (p_exact (fun a => a) eq_refl), map_id. reflexivity.
  - rewrite (p_exact Rabs Rabs_R0). exact B.
Qed.
End Mean.

Lemma mean_between rs lo hi : rs <> [] -> Forall (fun r => lo <= r <= hi) rs -> lo <= mean rs <= hi.
Proof.
  intros Ne H. assert (C : (1 <= length rs)%nat) by (destruct rs; [contradiction|simpl; lia]).
  assert (C1 : 1 <= INR (length rs)) by (change 1 with (INR 1); apply le_INR, C).
  assert (S : INR (length rs) * lo <= total_of rs <= INR (length rs) * hi).
  { clear - H. unfold total_of. induction H as [|r l Hr H IH]; [simpl; lra|]. simpl length. rewrite S_INR. simpl. lra. }
  assert (I0 : 0 < / INR (length rs)) by (apply Rinv_0_lt_compat; lra). unfold mean, Rdiv. split.
  - replace lo with (INR (length rs) * lo * / INR (length rs)) by (field; lra). apply Rmult_le_compat_r; lra.
  - replace hi with (INR (length rs) * hi * / INR (length rs)) by (field; lra). apply Rmult_le_compat_r; lra.
Qed.

Lemma nanmean_none order xs : (forall n, plan_for n (order n)) -> few xs -> present xs [] -> nanmean order xs = Ok B754_nan.
Proof.
  intros Ord Fw Pr.
  assert (Ta : tame 1000 xs).
  { clear - Pr. remember [] as rs. induction Pr; [constructor|constructor; [left; reflexivity|apply IHPr, Heqrs]|discriminate]. }
  destruct (s_val order Ord xs Ta Fw) as [F [V _]].
  rewrite (r_sum_int _ _ (v_int xs [] Pr (Forall_nil _))) in V.
  2: { rewrite (p_exact order Ord xs [] Pr Rabs Rabs_R0). simpl. apply (IZR_le 0). lia. }
  rewrite (p_exact order Ord xs [] Pr (fun a => a) eq_refl) in V. simpl in V.
  unfold nanmean. rewrite (present_count _ _ Pr). simpl length.
  destruct (sum_plan (order (length xs)) (map replace_nan xs)) as [s|s| |s m e Hb]; try discriminate F; [reflexivity|].
  exfalso. unfold value, plain in V. simpl in V. destruct s; unfold F2R in V; simpl in V.
  - apply Rmult_integral in V. destruct V as [V|V]; [|pose proof (bpow_gt_0 radix2 e); lra].
    apply eq_IZR in V. discriminate.
  - apply Rmult_integral in V. destruct V as [V|V]; [|pose proof (bpow_gt_0 radix2 e); lra].
    apply eq_IZR in V. discriminate.
Qed.

Lemma present_nil_iff xs rs : present xs rs -> (rs = [] <-> Forall (fun x => x = B754_nan) xs).
Proof.
  intro P. induction P as [|xs rs P IH|x xs rs N P IH].
  - split; [constructor|reflexivity].
  - rewrite IH. split; intro H; [constructor; auto|inversion H; assumption].
  - split; intro H; [discriminate|inversion H; contradiction].
Qed.
Lemma nanmean_nan order xs : (forall n, plan_for n (order n)) -> few xs -> tame 1000 xs ->
  (nanmean order xs = Ok B754_nan <-> Forall (fun x => x = B754_nan) xs).
Proof.
  intros Ord Fw Ta. destruct (present_total xs) as [rs Pr]. rewrite <- (present_nil_iff xs rs Pr). split.
  - intro H. destruct rs as [|r rs]; [reflexivity|].
    destruct (nanmean_val order Ord xs (r :: rs) Ta Fw Pr) as [w [E [F _]]]; [discriminate|].
    rewrite H in E. injection E as <-. discriminate F.
  - intros ->. apply nanmean_none; assumption.
Qed.
Lemma in_turn_plan n : plan_for n (in_turn n).
Proof.
  unfold plan_for. induction n as [|n IH]; [constructor|]. destruct n as [|n]; [apply Permutation_refl|].
  rewrite seq_S. simpl (0 + S n)%nat. change (items (in_turn (S (S n)))) with (S n :: items (in_turn (S n))).
  rewrite IH. apply Permutation_cons_append.
Qed.
