(** Properties of formatted numbers: exact integers, canonical texts, length. *)
From Coq Require Import String Ascii ZArith Reals Lia Lra.
From Flocq Require Import Core Relative BinarySingleNaN.
From Verif Require Import Base ModelArith ModelFloat SpecDouble FloatGrid ModelFmt SpecFmt FmtFacts.
Local Open Scope Z_scope.

Lemma round10_nearest p x : 1 <= p -> nearest_decimal p x (round10 p x).
Proof.
  intro Hp. assert (Hp' : Prec_gt_0 p) by (unfold Prec_gt_0; lia).
  assert (G : forall w, has_digits p w -> generic_format ten (FLX_exp p) w).
  { intros w [m [e [M ->]]]. apply generic_format_FLX. exists (Float ten m e); [reflexivity|exact M]. }
  assert (N := round_N_pt ten (FLX_exp p) (fun z => negb (Z.even z)) x). destruct N as [F N]. split.
  - apply FLX_format_generic in F; [|exact Hp']. destruct F as [[m e] E M]. exists m, e. split; [exact M|exact E].
  - intros w W. apply (N w). apply G, W.
Qed.

Lemma round10_error p x : 1 <= p -> (Rabs (round10 p x - x) <= / 2 * bpow ten (1 - p) * Rabs x)%R.
Proof.
  intro Hp. assert (Hp' : Prec_gt_0 p) by (unfold Prec_gt_0; lia).
  replace (1 - p) with (- p + 1) by lia. apply (relative_error_N_FLX ten p). exact Hp'.
Qed.
Lemma round10_le p x y : 1 <= p -> (x <= y)%R -> (round10 p x <= round10 p y)%R.
Proof. intros Hp H. assert (Hp' : Prec_gt_0 p) by (unfold Prec_gt_0; lia). apply round_le; [apply FLX_exp_valid, Hp'|apply valid_rnd_N|exact H]. Qed.
Lemma round10_exact p x : 1 <= p -> has_digits p x -> round10 p x = x.
Proof.
  intros Hp [m [e [M E]]]. apply round_generic; [apply valid_rnd_N|]. apply generic_format_FLX. exists (Float ten m e); [exact E|exact M].
Qed.

(** A number close to a short decimal is rounded to it. *)
Lemma spacing p d v : 1 <= p -> has_digits p d -> has_digits p v -> v <> d -> (Rabs d * bpow ten (- p) <= Rabs (v - d))%R.
Proof.
  intros Hp D V NE. assert (Hp' : Prec_gt_0 p) by (unfold Prec_gt_0; lia).
  assert (VF := FLX_exp_valid p).
  assert (G : forall w, has_digits p w -> generic_format ten (FLX_exp p) w).
  { intros w [m [e [M ->]]]. apply generic_format_FLX. exists (Float ten m e); [reflexivity|exact M]. }
  assert (W : forall d v, generic_format ten (FLX_exp p) d -> generic_format ten (FLX_exp p) v -> (0 < d)%R -> v <> d ->
                (d * bpow ten (- p) <= Rabs (v - d))%R).
  { clear d v D V NE. intros d v D V P NE. destruct (Rlt_le_dec d v) as [L|L].
    - rewrite Rabs_pos_eq by lra. pose proof (succ_le_lt ten (FLX_exp p) d v D V L) as S.
      unfold succ in S. rewrite Rle_bool_true in S by lra. pose proof (ulp_FLX_ge ten p d) as U. rewrite Rabs_pos_eq in U by lra. lra.
    - assert (L' : (v < d)%R) by lra. rewrite Rabs_minus_sym, Rabs_pos_eq by lra.
      pose proof (pred_ge_gt ten (FLX_exp p) v d V D L') as S. rewrite pred_eq_pos in S by lra. unfold pred_pos in S.
      pose proof (ulp_FLX_ge ten p d) as U. rewrite Rabs_pos_eq in U by lra.
      destruct (Req_bool_spec d (bpow ten (mag ten d - 1))) as [E|E]; [|lra].
      assert (Q : (bpow ten (FLX_exp p (mag ten d - 1)) = d * bpow ten (- p))%R).
      { transitivity (bpow ten (mag ten d - 1) * bpow ten (- p))%R; [|rewrite <- E; reflexivity]. rewrite <- bpow_plus. reflexivity. }
      lra. }
  destruct (Rtotal_order d 0) as [L|[L|L]].
  - rewrite Rabs_left by exact L. replace (v - d)%R with (- (- v - - d))%R by ring. rewrite Rabs_Ropp.
    apply W; [apply generic_format_opp, G, D|apply generic_format_opp, G, V|lra|intro Q; apply NE; lra].
  - rewrite L, Rabs_R0, Rmult_0_l. apply Rabs_pos.
  - rewrite Rabs_pos_eq by lra. apply W; auto.
Qed.

Lemma round10_near p x d : 1 <= p <= 15 -> has_digits p d -> (Rabs (x - d) <= / 2 ^ 53 * Rabs d)%R -> round10 p x = d.
Proof.
  intros Hp D X. destruct (Req_dec (round10 p x) d) as [E|NE]; [exact E|]. exfalso.
  destruct (round10_nearest p x ltac:(lia)) as [V N]. pose proof (N d D) as N1.
  pose proof (spacing p d _ ltac:(lia) D V NE) as S. rewrite (Rabs_minus_sym d x) in N1.
  assert (T : (Rabs (round10 p x - d) <= 2 * (/ 2 ^ 53 * Rabs d))%R).
  { replace (round10 p x - d)%R with ((round10 p x - x) + (x - d))%R by ring. pose proof (Rabs_triang (round10 p x - x) (x - d)). lra. }
  assert (B : (/ 1000000000000000 <= bpow ten (- p))%R).
  { replace (/ 1000000000000000)%R with (bpow ten (-15)) by (simpl; f_equal; unfold Z.pow_pos; simpl; lra). apply bpow_le. lia. }
  assert (P : (0 < Rabs d)%R).
  { apply Rabs_pos_lt. intro Z. subst d. apply NE. rewrite Rabs_R0, Rmult_0_r in X. pose proof (Rabs_pos (x - 0)).
    assert (x = 0)%R. { destruct (Req_dec (x - 0) 0) as [Q|Q]; [lra|]. pose proof (Rabs_pos_lt _ Q). lra. }
    subst x. unfold round10. apply round_0, valid_rnd_N. }
  assert (C : (2 * / 2 ^ 53 < / 1000000000000000)%R) by lra. nra.
Qed.

(** *** Integers *)
Lemma fmt_ratio_int p n b : 0 < b -> 0 < n < 10 ^ p -> fmt_ratio p (n * b) b = text_of (digits n).
Proof.
  intros Hb Hn. assert (Hp : 1 <= p).
  { destruct (Z_lt_le_dec p 1); [|assumption]. assert (10 ^ p <= 1); [|lia]. destruct (Z_lt_le_dec p 0); [rewrite Z.pow_neg_r; lia|].
    replace p with 0 by lia. simpl. lia. }
  destruct (digits_spec n ltac:(lia)) as [F [N [[B1 B2] L]]]. set (D := digits n) in *.
  pose proof (exponent_spec (n * b) b ltac:(lia) Hb) as X.
  assert (V : (IZR (n * b) / IZR b = IZR n)%R) by (rewrite mult_IZR; field; apply IZR_neq; lia). rewrite V in X.
  assert (E : exponent (n * b) b = len D - 1).
  { destruct X as [X1 X2]. apply IZR_le in B1. apply IZR_lt in B2. rewrite pow_bpow in B1, B2 by lia.
    assert (Y1 : (bpow ten (exponent (n * b) b) < bpow ten (len D))%R) by lra.
    assert (Y2 : (bpow ten (len D - 1) < bpow ten (exponent (n * b) b + 1))%R) by lra.
    apply lt_bpow in Y1. apply lt_bpow in Y2. lia. }
  assert (LP : len D <= p).
  { destruct (Z_lt_le_dec p (len D)); [|assumption]. assert (10 ^ p <= 10 ^ (len D - 1)) by (apply Z.pow_le_mono_r; lia). lia. }
  unfold fmt_ratio, significant. rewrite E. set (k := p - 1 - (len D - 1)). assert (K : 0 <= k) by (unfold k; lia).
  rewrite Z.max_r, (Z.max_l 0 (- k)) by lia. replace (b * 10 ^ 0) with b by lia.
  assert (NR : nearest (n * b * 10 ^ k) b = n * 10 ^ k).
  { unfold nearest. replace (n * b * 10 ^ k) with (n * 10 ^ k * b) by ring. rewrite Z.div_mul, Z.mod_mul by lia. simpl (2 * 0).
    destruct (Z.compare_spec 0 b); lia. }
  rewrite NR. assert (PK : 0 < 10 ^ k) by (apply Z.pow_pos_nonneg; lia).
  assert (LT : n * 10 ^ k < 10 ^ p).
  { replace p with (len D + k) at 1 by (unfold k; lia). rewrite Z.pow_add_r by lia. apply Z.mul_lt_mono_pos_r; assumption. }
  destruct (Z.eqb_spec (n * 10 ^ k) (10 ^ p)); [lia|].
  assert (DG : digits (n * 10 ^ k) = D ++ zeros k).
  { apply digits_known.
    - apply Forall_app. split; [exact F|apply zeros_digits].
    - rewrite number_app, number_zeros, len_zeros, N by exact K. lia.
    - lia.
    - rewrite len_app, len_zeros by exact K. replace (len D + k - 1) with (len D - 1 + k) by lia. rewrite Z.pow_add_r by lia.
      apply Z.mul_le_mono_pos_r; assumption. }
  rewrite DG, strip_zeros. unfold layout_g. replace (len D - 1 + 1) with (len D) by lia.
  destruct (Z.leb_spec (len D) (-4)); [lia|]. destruct (Z.ltb_spec p (len D)); [lia|]. cbn [orb].
  destruct (Z.leb_spec (len D) 0); [lia|]. destruct (strip_spec D) as [j [J1 J2]].
  assert (LJ : len D = len (strip D) + j) by (rewrite J1 at 1; rewrite len_app, len_zeros by exact J2; reflexivity).
  destruct (Z.leb_spec (len (strip D)) (len D)); [|lia]. f_equal. replace (len D - len (strip D)) with j by lia. symmetry. exact J1.
Qed.

Lemma fmt_int_exact p n : 1 <= p -> 0 <= n < 10 ^ p -> n < 2 ^ 53 -> fmt_int p n = str_int n.
Proof.
  intros Hp Hn H53. unfold fmt_int, str_int. destruct (Z.eqb_spec n 0) as [->|N0]; [reflexivity|].
  destruct (Z.ltb_spec n 0); [lia|]. cbn [sign_text append]. rewrite Z.abs_eq by lia.
  destruct (b_ofz_val n ltac:(lia)) as [FI V]. unfold finite in FI. destruct (b_ofz n) as [s|s| |s m e Hb]; try discriminate.
  - exfalso. unfold value, B2R in V. apply N0. apply eq_IZR. symmetry. exact V.
  - unfold value, B2R, F2R, cond_Zopp in V. cbn [Fnum Fexp] in V. destruct s.
    + exfalso. assert (0 < IZR n)%R by (apply IZR_lt; lia). pose proof (bpow_gt_0 radix2 e) as Pe.
      assert (IZR (Z.neg m) < 0)%R by (apply IZR_lt; lia). simpl (- Z.pos m) in V. nra.
    + cbn [fmt_b64 sign_text append]. destruct (ratio_value m e) as [A [B Q]]. rewrite V in Q. fold (num_of m e). fold (den_of e).
      assert (E : num_of m e = n * den_of e).
      { apply eq_IZR. rewrite mult_IZR, <- Q. field. apply IZR_neq. lia. }
      rewrite E. apply fmt_ratio_int; [exact B|lia].
Qed.
