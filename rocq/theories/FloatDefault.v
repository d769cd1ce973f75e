(** The default of [overlap_frac] in double precision. *)
From Coq Require Import Reals Lra Psatz.
From Flocq Require Import Core BinarySingleNaN Relative.
From Verif Require Import Base BaseFacts ModelCore ModelVPTree ModelArith ModelMetrics ModelCover SpecCover SpecMetric SpecMetrics SpecCubical CubicalFacts
  ModelFloat FloatFacts SpecDouble ModelPow SpecPow FloatMetric FloatAccuracy FloatGrid FloatCubical FloatCubicalFit.
Open Scope R_scope.

(** *** Powers of one half *)
Lemma exp_lip a b : b <= a -> a <= 0 -> Rabs (exp a - exp b) <= a - b.
Proof.
  intros H H0. assert (E : exp b = exp a * exp (b - a)) by (rewrite <- exp_plus; f_equal; ring).
  pose proof (exp_ineq1_le (b - a)). assert (exp (b - a) <= 1) by (destruct (Req_dec (b - a) 0) as [->|N]; [rewrite exp_0; lra|rewrite <- exp_0; left; apply exp_increasing; lra]).
  assert (A0 : 0 < exp a) by apply exp_pos. assert (A1 : exp a <= 1) by (destruct (Req_dec a 0) as [->|N]; [rewrite exp_0; lra|rewrite <- exp_0; left; apply exp_increasing; lra]).
  rewrite E. replace (exp a - exp a * exp (b - a)) with (exp a * (1 - exp (b - a))) by ring. rewrite Rabs_right by nra. nra.
Qed.
Lemma ln_half : -1 <= ln (1 / 2) < 0.
Proof.
  replace (1 / 2) with (/ 2) by lra. rewrite ln_Rinv by lra. pose proof ln_lt_2. split; [|lra]. assert (ln 2 <= 1); [|lra].
  rewrite <- (ln_exp 1). pose proof (exp_ineq1_le 1). destruct (Req_dec 2 (exp 1)) as [<-|N]; [lra|]. left. apply ln_increasing; lra.
Qed.
Lemma half_power a b e : 0 <= a -> 0 <= b -> Rabs (a - b) <= e -> Rabs (Rpower (1 / 2) a - Rpower (1 / 2) b) <= e.
Proof.
  intros A0 B0 H. unfold Rpower. destruct ln_half as [L1 L2]. apply Rabs_le_inv in H. destruct (Rle_dec a b) as [C|C].
  - eapply Rle_trans; [apply exp_lip; nra|]. nra.
  - rewrite Rabs_minus_sym. eapply Rle_trans; [apply exp_lip; nra|]. nra.
Qed.
Lemma half_power_range a : 0 <= a <= 1 -> 1 / 2 <= Rpower (1 / 2) a <= 1.
Proof.
  intros H. unfold Rpower. destruct ln_half as [L1 L2]. assert (E : exp (ln (1 / 2)) = 1 / 2) by (apply exp_ln; lra). split.
  - rewrite <- E at 1. destruct (Req_dec a 1) as [->|N]; [right; f_equal; ring|]. left. apply exp_increasing. nra.
  - apply Rle_trans with (exp 0); [|rewrite exp_0; apply Rle_refl]. destruct (Req_dec a 0) as [->|N]; [right; f_equal; ring|]. left. apply exp_increasing. nra.
Qed.

(** *** The computation *)
Section Default.
Variable p : b64 -> b64 -> b64.
Hypothesis p_ok : accurate_pow p.
Variable m : nat.
Hypothesis m1 : (1 <= m)%nat.
Hypothesis m2 : (Z.of_nat m <= 2 ^ 50)%Z.

Definition b_share : b64 := b_div (b_ofz 1) (b_ofz (Z.of_nat m)).
Definition b_beta : b64 := p (b_minus (b_ofz 1) (half BA)) b_share.
Definition b_default : b64 := b_minus (b_ofz 1) (b_div (b_ofz 1) (b_minus (b_ofz 2) b_beta)).

Lemma under_ovf x : Rabs x <= 4 -> Rabs x < ovf.
Proof. intros H. eapply Rle_lt_trans; [exact H|]. apply Rlt_le_trans with (bpow radix2 3); [change (bpow radix2 3) with 8; lra|apply bpow_le; lia]. Qed.
Lemma brnd_4 x : Rabs x <= 2 -> Rabs (brnd x) <= 4.
Proof. intros H. pose proof (brnd_abs_pow x 2) as Q. change (bpow radix2 2) with 4 in Q. apply Q; [lia|lra]. Qed.

Lemma share_ok : finite b_share /\ 0 <= value b_share <= 1 /\ Rabs (value b_share - 1 / INR m) <= ur.
Proof.
  assert (U := ur_pos). destruct (b_ofz_val 1 eq_refl) as [F1 V1]. destruct (b_ofz_val (Z.of_nat m)) as [Fm Vm]; [lia|].
  assert (I : 1 <= INR m) by (apply (le_INR 1); exact m1). rewrite <- INR_IZR_INZ in Vm.
  assert (Q : 0 < 1 / INR m <= 1).
  { split; [apply Rdiv_lt_0_compat; lra|]. apply Rmult_le_reg_r with (INR m); [lra|]. unfold Rdiv. rewrite Rmult_assoc, Rinv_l by lra. lra. }
  destruct (b_div_val (b_ofz 1) (b_ofz (Z.of_nat m)) F1) as [V F].
  { fold (value (b_ofz (Z.of_nat m))). rewrite Vm. lra. }
  { fold (value (b_ofz 1)) (value (b_ofz (Z.of_nat m))). rewrite V1, Vm. apply under_ovf, brnd_4. rewrite Rabs_right; lra. }
  fold (value (b_ofz 1)) (value (b_ofz (Z.of_nat m))) in V. rewrite V1, Vm in V. change (b_div (b_ofz 1) (b_ofz (Z.of_nat m))) with b_share in *.
  fold (value b_share) in V. split; [exact F|]. rewrite V. split.
  - split; [apply brnd_nonneg; lra|]. assert (E1 : brnd 1 = 1) by (rewrite <- V1; apply (brnd_id (b_ofz 1))). eapply Rle_trans; [apply brnd_le; exact (proj2 Q)|rewrite E1; lra].
  - eapply Rle_trans; [apply norm_err|].
    + rewrite Rabs_right by lra. apply Rle_trans with (bpow radix2 (-50)); [apply bpow_le; lia|]. change (bpow radix2 (-50)) with (bpow radix2 (- (50))). rewrite bpow_opp. unfold Rdiv. rewrite Rmult_1_l. apply Rinv_le; [lra|].
      rewrite INR_IZR_INZ. change (bpow radix2 50) with (IZR (2 ^ 50)). apply IZR_le. exact m2.
    + rewrite Rabs_right by lra. nra.
Qed.

Lemma base_ok : finite (b_minus (b_ofz 1) (half BA)) /\ value (b_minus (b_ofz 1) (half BA)) = 1 / 2.
Proof.
  destruct (b_ofz_val 1 eq_refl) as [F1 V1]. destruct half_val as [Fh Vh].
  assert (E : brnd (1 / 2) = 1 / 2). { replace (1 / 2) with (value (half BA)) by (rewrite Vh; lra). apply (brnd_id (half BA)). }
  destruct (b_minus_val (b_ofz 1) (half BA) F1 Fh) as [V F].
  { fold (value (b_ofz 1)) (value (half BA)). rewrite V1, Vh. apply under_ovf, brnd_4. rewrite Rabs_right; lra. }
  split; [exact F|]. unfold value at 1. rewrite V. fold (value (b_ofz 1)) (value (half BA)). rewrite V1, Vh. replace (1 - / 2) with (1 / 2) by lra. exact E.
Qed.

Lemma beta_ok : finite b_beta /\ Rabs (value b_beta - Rpower (1 / 2) (1 / INR m)) <= 3 * ur.
Proof.
  assert (U := ur_pos). destruct share_ok as [Fs [Rs Es]]. destruct base_ok as [Fb Vb].
  destruct (p_ok _ _ Fb Fs) as [F E]; [rewrite Vb; lra|exact Rs|]. split; [exact F|]. fold b_beta in E. rewrite Vb in E.
  destruct (half_power_range _ Rs) as [P1 P2]. assert (I : 1 <= INR m) by (apply (le_INR 1); exact m1).
  assert (Q : 0 <= 1 / INR m) by (left; apply Rdiv_lt_0_compat; lra).
  pose proof (half_power _ _ _ (proj1 Rs) Q Es) as H. rewrite eps_ur in E. apply Rabs_le_inv in H, E. apply Rabs_le. nra.
Qed.

Lemma default_ok ov : default_overlap m ov -> finite b_default /\ Rabs (value b_default - ov) <= 8 * eps64 /\ value b_default <= 1 / 2.
Proof.
  intros D. assert (U := ur_pos). assert (U1 : ur <= / 1024) by apply ur_lt. destruct (b_ofz_val 1 eq_refl) as [F1 V1], (b_ofz_val 2 eq_refl) as [F2 V2].
  destruct beta_ok as [Fb Eb]. destruct (root_half m m1) as [[B1 B2] _]. cbv zeta in B1, B2.
  apply (default_overlap_computed m ov m1) in D. unfold get_overlap_frac in D. destruct m as [|m'] eqn:Em; [lia|]. rewrite <- Em in *.
  assert (Eo : ov = 1 - 1 / (2 - Rpower (1 / 2) (1 / INR m))).
  { injection D as D. rewrite <- D. change (1 - 1 / (2 - Rpower (1 - 1 / 2) (1 / IZR (Z.of_nat m))) = 1 - 1 / (2 - Rpower (1 / 2) (1 / INR m))).
    replace (1 - 1 / 2) with (1 / 2) by lra. rewrite <- INR_IZR_INZ. reflexivity. }
  clear D. set (b := Rpower (1 / 2) (1 / INR m)) in *. apply Rabs_le_inv in Eb.
  destruct (b_minus_val (b_ofz 2) b_beta F2 Fb) as [Vg Fg].
  { fold (value (b_ofz 2)) (value b_beta). rewrite V2. apply under_ovf, brnd_4. apply Rabs_le. lra. }
  fold (value (b_ofz 2)) (value b_beta) in Vg. rewrite V2 in Vg. set (g := b_minus (b_ofz 2) b_beta) in *. fold (value g) in Vg.
  assert (Eg : Rabs (value g - (2 - value b_beta)) <= ur * Rabs (2 - value b_beta)).
  { rewrite Vg, <- V2. apply minus_err; apply fmt_value. }
  rewrite (Rabs_right (2 - value b_beta)) in Eg by lra. apply Rabs_le_inv in Eg.
  assert (Hg : Rabs (value g - (2 - b)) <= 5 * ur) by (apply Rabs_le; nra). apply Rabs_le_inv in Hg.
  assert (G : 1 - 5 * ur <= value g <= 1 / 2 + 1 + 5 * ur) by lra.
  assert (Iq : 0 < 1 / value g <= 1 + 6 * ur).
  { split; [apply Rdiv_lt_0_compat; lra|]. apply Rmult_le_reg_r with (value g); [lra|]. unfold Rdiv. rewrite Rmult_assoc, Rinv_l by lra. nra. }
  assert (Il : / 2 <= 1 / value g). { unfold Rdiv. rewrite Rmult_1_l. apply Rinv_le; lra. }
  destruct (b_div_val (b_ofz 1) g F1) as [Vq Fq].
  { fold (value g). lra. }
  { fold (value (b_ofz 1)) (value g). rewrite V1. apply under_ovf, brnd_4. apply Rabs_le. lra. }
  fold (value (b_ofz 1)) (value g) in Vq. rewrite V1 in Vq. set (q := b_div (b_ofz 1) g) in *. fold (value q) in Vq.
  assert (Eq : Rabs (value q - 1 / value g) <= ur * Rabs (1 / value g)).
  { rewrite Vq. apply norm_err. rewrite Rabs_right by lra. eapply Rle_trans; [|exact Il]. apply (bpow_le radix2 (-1022) (-1)). lia. }
  rewrite (Rabs_right (1 / value g)) in Eq by lra. apply Rabs_le_inv in Eq.
  assert (Ed : Rabs (1 / value g - 1 / (2 - b)) <= 6 * ur).
  { replace (1 / value g - 1 / (2 - b)) with (((2 - b) - value g) * (1 / value g) * / (2 - b)) by (field; lra).
    rewrite !Rabs_mult, (Rabs_right (1 / value g)), (Rabs_right (/ (2 - b))) by (try lra; left; apply Rinv_0_lt_compat; lra).
    assert (I2 : 0 < / (2 - b) <= 1) by (split; [apply Rinv_0_lt_compat; lra|rewrite <- Rinv_1; apply Rinv_le; lra]).
    assert (Z : Rabs (2 - b - value g) <= 5 * ur) by (apply Rabs_le; lra). pose proof (Rabs_pos (2 - b - value g)).
    assert (Rabs (2 - b - value g) * (1 / value g) <= 6 * ur) by nra. assert (0 <= Rabs (2 - b - value g) * (1 / value g)) by nra. nra. }
  apply Rabs_le_inv in Ed.
  destruct (b_minus_val (b_ofz 1) q F1 Fq) as [Vd Fd].
  { fold (value (b_ofz 1)) (value q). rewrite V1. apply under_ovf, brnd_4. apply Rabs_le. nra. }
  fold (value (b_ofz 1)) (value q) in Vd. rewrite V1 in Vd. change (b_minus (b_ofz 1) q) with b_default in *. fold (value b_default) in Vd.
  assert (Ef : Rabs (value b_default - (1 - value q)) <= ur * Rabs (1 - value q)).
  { rewrite Vd, <- V1. apply minus_err; apply fmt_value. }
  assert (Rabs (1 - value q) <= 1) by (apply Rabs_le; nra).
  assert (Rabs (value b_default - (1 - value q)) <= ur) by nra. apply Rabs_le_inv in H0.
  assert (Dq : Rabs (value b_default - ov) <= 8 * eps64). { rewrite eps_ur. apply Rabs_le. rewrite Eo. nra. }
  split; [exact Fd|]. split; [exact Dq|]. apply Rabs_le_inv in Dq. rewrite eps_ur in Dq.
  assert (ov <= 1 / 3); [|lra]. rewrite Eo. assert (2 / 3 <= 1 / (2 - b)); [|lra].
  apply Rmult_le_reg_r with (2 - b); [lra|]. unfold Rdiv at 2. rewrite Rmult_assoc, Rinv_l by lra. lra.
Qed.
End Default.

(** *** With the default, the cover is that of the computed value *)
Lemma default_apply p n t cap lr alg (X : list (list b64)) m : X <> [] -> length (hd [] X) = m -> (1 <= m)%nat ->
  cubical_apply (BAP p) b_eps alg (@mkcub (BAP p) n None t cap lr) X =
  cubical_apply BA b_eps alg (@mkcub BA n (Some (b_default p m)) t cap lr) X.
Proof.
  intros N L M. destruct X as [|x0 X]; [contradiction|]. cbn [hd] in L.
  assert (E : get_overlap_frac (BAP p) (length x0) (half (BAP p)) = Ok (b_default p m)).
  { rewrite L. unfold get_overlap_frac. destruct m; [lia|]. reflexivity. }
  assert (F : cubical_fit (BAP p) b_eps (@mkcub (BAP p) n None t cap lr) (x0 :: X) = cubical_fit BA b_eps (@mkcub BA n (Some (b_default p m)) t cap lr) (x0 :: X) /\
    standard_cubical_apply (BAP p) b_eps (@mkcub (BAP p) n None t cap lr) (x0 :: X) = standard_cubical_apply BA b_eps (@mkcub BA n (Some (b_default p m)) t cap lr) (x0 :: X)).
  { unfold cubical_fit, standard_cubical_apply, cubical_fit_state. cbn [cu_overlap_frac cu_n_intervals cu_tree cu_leaf_capacity cu_leaf_radius hd].
    match goal with |- context [get_overlap_frac (BAP p) ?a ?b] => change (get_overlap_frac (BAP p) a b) with (get_overlap_frac (BAP p) (length x0) (half (BAP p))) end.
    rewrite E. cbn [bind].
    change (le_b (BAP p) (b_default p m) (zero (BAP p))) with (b_le (b_default p m) (zero BA)).
    change (le_b BA (b_default p m) (zero BA)) with (b_le (b_default p m) (zero BA)).
    destruct (b_le (b_default p m) (zero BA)); [split; reflexivity|]. cbn [get_bounds bind b_n b_min b_delta].
    set (den := sub (BAP p) _ _). change (sub BA (ofz BA 2) (mul BA (ofz BA 2) (b_default p m))) with den.
    change (eq_b (BAP p) den (zero (BAP p))) with (eq_b BA den (zero BA)). destruct (eq_b BA den (zero BA)); [split; reflexivity|].
    match goal with |- context [@ball_fit ?T ?D ?a ?b ?c ?d ?e ?f ?g] => set (r1 := @ball_fit T D a b c d e f g) end.
    match goal with |- context [@ball_fit ?T ?D ?a ?b ?c ?d ?e ?f ?g] => change (@ball_fit T D a b c d e f g) with r1 end.
    destruct r1 as [search|e]; split; reflexivity. }
  destruct alg; cbn [cubical_apply].
  - unfold proximity_cubical_apply, proximity_net. rewrite (proj1 F). reflexivity.
  - exact (proj2 F).
  - reflexivity.
Qed.
