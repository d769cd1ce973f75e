(** C31, C53, C54: the default of [overlap_frac], also in double precision. *)
From Coq Require Import Reals Lra Psatz.
From Flocq Require Import Core BinarySingleNaN.
From Verif Require Import Base BaseFacts ModelCore SpecNet ModelVPTree ModelArith ModelMetrics ModelCover SpecCover SpecMetric SpecMetrics SpecCubical CubicalFacts
  ModelFloat FloatFacts SpecDouble ModelPow SpecPow FloatMetric FloatAccuracy FloatGrid FloatCubical FloatCubicalFit FloatDefault PropFloat.
From Verif Require Import SpecWhole PropWhole.
Open Scope R_scope.

(** ** C31: the default overlap in dimension [m] is at least [1 / (3 m)], its value for [m = 1]. *)
Theorem C31_default_bound : forall m ov, (1 <= m)%nat -> default_overlap m ov -> 1 / (3 * INR m) <= ov.
Proof.
  intros m ov Hm [[O1 O2] O3]. assert (I : 1 <= INR m) by (apply (le_INR 1); exact Hm). set (b := 2 - 1 / (1 - ov)) in *.
  assert (P : 0 < / (1 - ov) <= 3 / 2).
  { split; [apply Rinv_0_lt_compat; lra|]. replace (3 / 2) with (/ (2 / 3)) by lra. apply Rinv_le; lra. }
  assert (B : 1 / 2 <= b) by (unfold b, Rdiv; lra).
  assert (Q : b <= 1 - 1 / (2 * INR m)).
  { destruct (Rle_lt_dec b (1 - 1 / (2 * INR m))) as [L|L]; [exact L|]. exfalso.
    set (h := 1 / (2 * INR m)) in *. assert (H : 0 < h <= 1 / 2).
    { unfold h. split; [apply Rdiv_lt_0_compat; lra|]. unfold Rdiv. rewrite !Rmult_1_l. apply Rinv_le; lra. }
    assert (W : forall k, 1 - INR k * h <= (1 - h) ^ k).
    { induction k as [|k IH]; [simpl; lra|]. rewrite S_INR. simpl. assert (0 <= INR k) by apply pos_INR. nra. }
    assert (S : (1 - h) ^ m < b ^ m).
    { clearbody h b. clear - Hm L H. destruct m as [|k]; [lia|]. clear Hm. induction k as [|k IH]; [simpl; lra|]. change ((1 - h) * (1 - h) ^ S k < b * b ^ S k).
      apply Rmult_le_0_lt_compat; [lra|apply pow_le; lra|lra|exact IH]. }
    specialize (W m). assert (INR m * h = 1 / 2) by (unfold h; field; lra). lra. }
  assert (E : ov = 1 - 1 / (2 - b)) by (unfold b; field; lra). rewrite E. set (h := 1 / (2 * INR m)) in *.
  assert (H : 0 < h <= 1 / 2).
  { unfold h. split; [apply Rdiv_lt_0_compat; lra|]. unfold Rdiv. rewrite !Rmult_1_l. apply Rinv_le; lra. }
  replace (1 / (3 * INR m)) with (2 / 3 * h) by (unfold h; field; lra).
  apply Rmult_le_reg_r with (2 - b); [lra|]. replace ((1 - 1 / (2 - b)) * (2 - b)) with (1 - b) by (field; lra). nra.
Qed.
Print Assumptions C31_default_bound.
Example C31_default_bound_example : default_overlap 1 (1 / 3).
Proof. unfold default_overlap. split; [lra|]. simpl. field. Qed.

(** ** C53: with the default [overlap_frac] and an accurate [pow], the computed overlap is
    the documented one up to [8 eps], and the cover is as for a given one. *)
Theorem C53_default_overlap : forall p n t cap lr m (X : list (list b64)) lo hi ov0 E alg,
  accurate_pow p -> (1 <= m)%nat -> (Z.of_nat m <= 2 ^ 50)%Z -> (1 <= n <= 2 ^ 50)%Z -> X <> [] -> Forall (moderate m) X ->
  column_bounds m (map reals X) lo hi ->
  default_overlap m ov0 -> (forall j, (j < m)%nat -> grid_error n (lo j) (hi j) <= E) -> E + 8 * eps64 < ov0 ->
  opt_magnitude lr -> (1 <= cap)%nat -> tp_kind t <> OtherKind -> alg <> OtherAlgorithm ->
  let net := cubical_apply (BAP p) (b_make 1 (-52)) alg (@mkcub (BAP p) n None t cap lr) X in
  stops net = None /\ covers (length X) (yields net) /\
  (forall s, In s (yields net) -> s <> [] /\ NoDup s /\ forall i, In i s -> (i < length X)%nat) /\
  exists ov, Rabs (ov - ov0) <= 8 * eps64 /\
  ((forall j, (j < m)%nat -> hi j - lo j <= eps64 \/ 2 * eps64 <= hi j - lo j) ->
   forall s, In s (yields net) -> exists x k, In x X /\
     near_cell E m n (grid_pos n eps64 lo hi) (reals x) k /\
     cube_up_to E m (1 / (2 - 2 * ov)) (grid_pos n eps64 lo hi) (map reals X) k s).
Proof.
  intros p n t cap lr m X lo hi ov0 E alg P M1 M2 N X0 XM B D G EE L C K A net.
  destruct (default_ok p P m M1 M2 ov0 D) as [Fo [Eo Ho]].
  assert (Lx : length (hd [] X) = m).
  { destruct X as [|x X']; [contradiction|]. inversion XM as [|? ? [Q _] _]. exact Q. }
  assert (R : net = cubical_apply BA b_eps alg (@mkcub BA n (Some (b_default p m)) t cap lr) X) by exact (default_apply p n t cap lr alg X m X0 Lx M1).
  pose proof Eo as Eo'. apply Rabs_le_inv in Eo'.
  destruct (C53_cubical_cover (@mkcub BA n (Some (b_default p m)) t cap lr) m X lo hi (b_default p m) E alg) as [Q1 [Q2 [Q3 Q4]]]; auto; [lra|].
  change (b_make 1 (-52)) with b_eps in Q1, Q2, Q3, Q4. rewrite <- R in Q1, Q2, Q3, Q4. split; [exact Q1|]. split; [exact Q2|]. split; [exact Q3|].
  exists (value (b_default p m)). split; [exact Eo|]. intros W s I. exact (Q4 Ho W s I).
Qed.
Print Assumptions C53_default_overlap.

(** Rounding the exact power to 52 binary digits is accurate enough. *)
Definition rounded_pow (a b : b64) : b64 := b_make (ZnearestE (Rpower (value a) (value b) * bpow radix2 52)) (-52).
Example C53_accurate_pow_exists : accurate_pow rounded_pow.
Proof.
  intros a b _ _ A B. set (x := Rpower (value a) (value b)).
  assert (X : 1 / 2 <= x <= 1).
  { unfold x, Rpower. assert (L : ln (1 / 2) <= ln (value a) <= 0).
    { split; [destruct (Req_dec (1 / 2) (value a)) as [<-|Ne]; [lra|left; apply ln_increasing; lra]|].
      rewrite <- ln_1. destruct (Req_dec (value a) 1) as [->|Ne]; [lra|left; apply ln_increasing; lra]. }
    assert (E : exp (ln (1 / 2)) = 1 / 2) by (apply exp_ln; lra). split.
    - rewrite <- E at 1. assert (K : ln (1 / 2) <= value b * ln (value a)) by nra. destruct K as [K|K]; [left; apply exp_increasing; exact K|right; f_equal; exact K].
    - apply Rle_trans with (exp 0); [|rewrite exp_0; apply Rle_refl]. assert (K : value b * ln (value a) <= 0) by nra.
      destruct K as [K|K]; [left; apply exp_increasing; exact K|right; f_equal; exact K]. }
  assert (P : bpow radix2 52 = IZR (2 ^ 52)) by reflexivity. set (z := ZnearestE (x * bpow radix2 52)).
  assert (Hz : Rabs (IZR z - x * bpow radix2 52) <= / 2) by (rewrite Rabs_minus_sym; apply Znearest_half).
  assert (P0 : 0 < bpow radix2 52) by apply bpow_gt_0. apply Rabs_le_inv in Hz.
  assert (Z1 : (z <= 2 ^ 52)%Z). { apply Z.lt_succ_r. apply lt_IZR. rewrite succ_IZR, <- P. nra. }
  assert (Z0 : (0 <= z)%Z). { apply Z.lt_succ_r. apply lt_IZR. rewrite succ_IZR. nra. }
  destruct (b_make_val z (-52)) as [F V]; [lia|lia|]. change (b_make z (-52)) with (rounded_pow a b) in *. split; [exact F|]. rewrite V.
  assert (I : bpow radix2 52 * bpow radix2 (-52) = 1) by (rewrite <- bpow_plus; reflexivity).
  replace (IZR z * bpow radix2 (-52) - x) with ((IZR z - x * bpow radix2 52) * bpow radix2 (-52)) by (rewrite Rmult_minus_distr_r, Rmult_assoc, I; ring).
  assert (E0 : 0 < bpow radix2 (-52)) by apply bpow_gt_0. rewrite Rabs_mult, (Rabs_right (bpow radix2 (-52))) by lra. unfold eps64.
  assert (Rabs (IZR z - x * bpow radix2 52) <= / 2) by (apply Rabs_le; lra). nra.
Qed.
(** The column of [C53_hypotheses_met] meets the hypotheses with the default, too. *)
Example C53_default_hypotheses_met :
  default_overlap 1 (1 / 3) /\ (forall j, (j < 1)%nat -> grid_error 3 0 9 <= 192 * eps64) /\ 192 * eps64 + 8 * eps64 < 1 / 3.
Proof.
  split; [exact C31_default_bound_example|]. split; [exact (proj1 (proj2 (proj2 C53_hypotheses_met)))|].
  assert (E1 : eps64 <= / 1024) by (apply (bpow_le radix2 (-52) (-10)); lia). assert (E2 : eps64 <= / 1048576) by (apply (bpow_le radix2 (-52) (-20)); lia). lra.
Qed.

(** ** C54: so Mapper with [CubicalCover] as it is by default loses no point. *)
Theorem C54_cubical_default :
  forall (S : Type) (X : list S) (Y : list (list b64)) (clust : clustering S) p n t cap lr m lo hi ov0 E alg,
  length Y = length X -> labels_every_point X clust ->
  accurate_pow p -> (1 <= m)%nat -> (Z.of_nat m <= 2 ^ 50)%Z -> (1 <= n <= 2 ^ 50)%Z -> Y <> [] -> Forall (moderate m) Y ->
  column_bounds m (map reals Y) lo hi ->
  default_overlap m ov0 -> (forall j, (j < m)%nat -> grid_error n (lo j) (hi j) <= E) -> E + 8 * eps64 < ov0 ->
  opt_magnitude lr -> (1 <= cap)%nat -> tp_kind t <> OtherKind -> alg <> OtherAlgorithm ->
  no_point_lost X (cubical_apply (BAP p) (b_make 1 (-52)) alg (@mkcub (BAP p) n None t cap lr) Y) clust.
Proof.
  intros S X Y clust p n t cap lr m lo hi ov0 E alg L Hc P M1 M2 N X0 XM B D G EE H1 H2 H3 H4.
  apply C54_no_point_lost; [|exact Hc]. rewrite <- L.
  destruct (C53_default_overlap p n t cap lr m Y lo hi ov0 E alg P M1 M2 N X0 XM B D G EE H1 H2 H3 H4) as [Q1 [Q2 [Q3 _]]].
  split; [exact Q1|]. split; [exact Q2|exact Q3].
Qed.
Print Assumptions C54_cubical_default.
