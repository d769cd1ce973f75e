(** Cubical covers in double precision: the grid, the search, the covers. *)
From Coq Require Import Reals Lra Psatz Sorted.
From Flocq Require Import Core BinarySingleNaN Relative.
From Verif Require Import Base BaseFacts ModelCore SpecNet CoreLabels CoreProp ModelQuickselect ModelVPTree SpecVPTree
  VPProp ModelArith ModelMetrics ModelCover SpecCover SpecMetric SpecMetrics SpecCubical CoverFacts CoverProp CubicalFacts
  ModelFloat FloatFacts SpecDouble FloatCover FloatMetric FloatAccuracy FloatGrid MetricProp FloatCubical.
Open Scope R_scope.

Definition b_eps : b64 := b_make 1 (-52).

Lemma b_eps_val : finite b_eps /\ value b_eps = eps64.
Proof.
  split; [reflexivity|]. unfold eps64, value, b_eps, b_make.
  assert (E : brnd (F2R (Float radix2 1 (-52))) = bpow radix2 (-52)).
  { unfold F2R. cbn [Fnum Fexp]. rewrite Rmult_1_l. apply brnd_pow. lia. }
  pose proof (binary_normalize_correct 53 1024 prec53 emax1024 mode_NE 1 (-52) false) as C.
  cbv zeta in C. rewrite Rlt_bool_true in C.
  - destruct C as [C1 _]. etransitivity; [exact C1|exact E].
  - eapply Rle_lt_trans; [apply Req_le, f_equal; exact E|].
    rewrite Rabs_right by (apply Rle_ge, bpow_ge_0). apply bpow_lt. lia.
Qed.

Lemma eps_ur : eps64 = 2 * ur.
Proof. unfold eps64. symmetry. apply two_u. Qed.

(** *** The unit of one column *)
Definition unit_ (n : Z) (d : b64) : b64 :=
  if b_le (b_minus b_zero b_eps) d && b_le d b_eps then b_ofz n else d.

Lemma rel_brnd w : fmt w \/ True -> 0 <= w -> Rabs (brnd w - w) <= ur * w -> w <= brnd w * (1 + 2 * ur) /\ brnd w <= w * (1 + ur).
Proof.
  intros _ Hw H. apply Rabs_le_inv in H. assert (U := ur_pos). assert (U1 := ur_lt). split; [|lra]. nra.
Qed.

Lemma unit_ok n mn mx : (1 <= n <= 2 ^ 50)%Z -> small 500 mn -> small 500 mx -> value mn <= value mx ->
  let dl := unit_ n (b_minus mx mn) in let w := value mx - value mn in
  finite dl /\ bpow radix2 (-52) <= value dl <= bpow radix2 501 /\
  w <= value dl * (1 + 2 * ur) /\ width n (value mn) (value mx) <= value dl * (1 + 2 * ur) /\
  ((w <= eps64 /\ value dl = IZR n) \/ (2 * eps64 <= w /\ Rabs (value dl - w) <= ur * w) \/ (eps64 < w < 2 * eps64)).
Proof.
  intros Hn Hmn Hmx Hle. cbv zeta. assert (U := ur_pos). assert (U1 := ur_lt).
  assert (N1 : 1 <= IZR n) by (apply IZR_le; lia).
  assert (N2 : IZR n <= bpow radix2 50) by (change (bpow radix2 50) with (IZR (2 ^ 50)); apply IZR_le; lia).
  destruct (small_minus 500 mx mn ltac:(lia) Hmx Hmn) as [[Fd Bd] Vd]. set (d := b_minus mx mn) in *.
  set (w := value mx - value mn) in *. assert (W0 : 0 <= w) by (unfold w; lra).
  assert (Ew : Rabs (brnd w - w) <= ur * w).
  { rewrite <- (Rabs_right w) at 3 by lra. apply minus_err; apply fmt_value. }
  destruct (rel_brnd w (or_intror I) W0 Ew) as [R1 R2].
  destruct b_eps_val as [Fe Ve]. assert (E0 : 0 < eps64) by apply bpow_gt_0. assert (Es : eps64 <= / 4) by (apply (bpow_le radix2 (-52) (-2)); lia).
  assert (Ee : brnd eps64 = eps64) by (apply brnd_pow; lia).
  assert (L1 : b_le (b_minus b_zero b_eps) d = true).
  { destruct (b_minus_val b_zero b_eps eq_refl Fe) as [V F].
    - fold (value b_eps). rewrite Ve. change (rv b_zero) with 0. rewrite Rminus_0_l, brnd_opp, Rabs_Ropp, Ee.
      rewrite Rabs_right by lra. apply bpow_lt. lia.
    - rewrite b_le_val by assumption. apply Rleb_true. rewrite V. fold (value b_eps) (value d). rewrite Ve.
      change (rv b_zero) with 0. rewrite Rminus_0_l, brnd_opp, Ee, Vd. pose proof (brnd_nonneg w W0). lra. }
  unfold unit_. rewrite L1, b_le_val by assumption. fold (value d) (value b_eps). rewrite Vd, Ve. simpl andb.
  unfold Rleb, width. fold w. destruct (Rle_dec (brnd w) eps64) as [C|C].
  - destruct (b_ofz_val n) as [Fn Vn]; [lia|]. rewrite Vn. split; [exact Fn|].
    assert (w <= 2 * eps64) by nra. assert (w <= IZR n * (1 + 2 * ur)) by nra.
    split; [|split; [assumption|split]].
    + split; [apply Rle_trans with 1; [apply (bpow_le radix2 (-52) 0); lia|exact N1]|].
      eapply Rle_trans; [exact N2|]. apply bpow_le. lia.
    + destruct (Rle_dec w eps64); nra.
    + destruct (Rle_dec w eps64) as [L|L]; [left; auto|]. right.
      destruct (Rle_dec (2 * eps64) w) as [L2|L2]; [|right; lra]. exfalso.
      assert (w <= eps64 * (1 + 2 * ur)) by (eapply Rle_trans; [exact R1|]; apply Rmult_le_compat_r; lra). nra.
  - assert (Lw : ~ w <= eps64). { intro L. apply brnd_le in L. rewrite Ee in L. lra. }
    split; [exact Fd|]. rewrite Vd. split; [|split; [exact R1|split]].
    + split; [apply Rlt_le, Rnot_le_lt, C|]. rewrite Vd in Bd. rewrite Rabs_right in Bd; [exact Bd|].
      apply Rle_ge, brnd_nonneg, W0.
    + destruct (Rle_dec w eps64); [contradiction|exact R1].
    + right. destruct (Rle_dec (2 * eps64) w) as [L2|L2]; [left; split; [exact L2|exact Ew]|right; lra].
Qed.

(** *** Radius *)
Lemma fmt_double x : fmt x -> fmt (2 * x).
Proof.
  intro H. apply FLT_format_generic in H; [|reflexivity]. destruct H as [f E H1 H2].
  apply generic_format_FLT. exists (Float radix2 (Fnum f) (Fexp f + 1)); cbn [Fnum Fexp] in *; [|exact H1|lia].
  rewrite E. unfold F2R. cbn [Fnum Fexp]. rewrite bpow_plus_1. change (IZR radix2) with 2. ring.
Qed.

Lemma below_one x : fmt x -> x < 1 -> x <= 1 - ur.
Proof.
  intros H H1. assert (G : fmt 1). { change 1 with (bpow radix2 0). rewrite <- (Rmult_1_l (bpow radix2 0)). apply (format_int_pow 1 0); simpl; lia. }
  destruct (Rle_lt_dec x (1 - ur)) as [L|L]; [exact L|]. exfalso.
  assert (U := ur_lt). assert (Hx : / 2 <= x) by lra.
  assert (M : mag radix2 x = 0%Z :> Z).
  { apply mag_unique. rewrite Rabs_right by lra. simpl. change (bpow radix2 (0 - 1)) with (/ 2). simpl. lra. }
  unfold generic_format, F2R, scaled_mantissa, cexp in H. rewrite M in H. cbn [Fnum Fexp] in H.
  change (FLT_exp (-1074) 53 0) with (-53)%Z in H. set (k := Ztrunc _) in H.
  assert (Hk : IZR k < IZR (2 ^ 53)).
  { apply Rmult_lt_reg_r with (bpow radix2 (-53)); [apply bpow_gt_0|]. rewrite <- H.
    change (IZR (2 ^ 53)) with (bpow radix2 53). rewrite <- bpow_plus. exact H1. }
  apply lt_IZR in Hk. assert (Hk' : IZR k <= IZR (2 ^ 53 - 1)) by (apply IZR_le; lia).
  assert (x <= IZR (2 ^ 53 - 1) * bpow radix2 (-53)).
  { rewrite H. apply Rmult_le_compat_r; [apply bpow_ge_0|exact Hk']. }
  rewrite minus_IZR in H0. change (IZR (2 ^ 53)) with (bpow radix2 53) in H0.
  rewrite Rmult_minus_distr_r, <- bpow_plus, Rmult_1_l in H0. change (bpow radix2 (53 + -53)) with 1 in H0. fold ur in H0. lra.
Qed.

Definition b_radius (ov : b64) : b64 := b_div (b_ofz 1) (b_minus (b_ofz 2) (b_mult (b_ofz 2) ov)).

Lemma radius_ok ov : finite ov -> 0 < value ov < 1 ->
  let den := b_minus (b_ofz 2) (b_mult (b_ofz 2) ov) in let r := 1 / (2 - 2 * value ov) in
  finite den /\ 0 < value den /\ finite (b_radius ov) /\ Rabs (value (b_radius ov) - r) <= 3 * ur * r.
Proof.
  intros Fo Ho. cbv zeta. assert (U := ur_pos). assert (U1 := ur_lt).
  destruct (b_ofz_val 1 eq_refl) as [F1 V1], (b_ofz_val 2 eq_refl) as [F2 V2].
  pose proof (below_one _ (fmt_value ov) (proj2 Ho)) as Hb.
  assert (E1 : brnd (2 * value ov) = 2 * value ov).
  { apply round_generic; [apply valid_rnd_N|]. apply fmt_double, fmt_value. }
  destruct (b_mult_val (b_ofz 2) ov F2 Fo) as [Vm Fm].
  { fold (value (b_ofz 2)) (value ov). rewrite V2, E1, Rabs_right by lra.
    apply Rlt_trans with (bpow radix2 1); [change (bpow radix2 1) with 2; lra|apply bpow_lt; lia]. }
  fold (value (b_ofz 2)) (value ov) (value (b_mult (b_ofz 2) ov)) in Vm. rewrite V2, E1 in Vm.
  set (o2 := b_mult (b_ofz 2) ov) in *. set (y := 2 - 2 * value ov). assert (Y : 2 * ur <= y < 2) by (unfold y; lra).
  assert (E2 : Rabs (brnd y - y) <= ur * y).
  { rewrite <- (Rabs_right y) at 3 by lra. unfold y. rewrite <- Vm. rewrite <- V2. apply minus_err; apply fmt_value. }
  apply Rabs_le_inv in E2.
  destruct (b_minus_val (b_ofz 2) o2 F2 Fm) as [Vd Fd].
  { fold (value (b_ofz 2)) (value o2). rewrite V2, Vm. fold y. rewrite Rabs_right by nra.
    apply Rlt_trans with (bpow radix2 2); [change (bpow radix2 2) with 4; nra|apply bpow_lt; lia]. }
  fold (value (b_ofz 2)) (value o2) (value (b_minus (b_ofz 2) o2)) in Vd. rewrite V2, Vm in Vd. fold y in Vd.
  set (den := b_minus (b_ofz 2) o2) in *. assert (D : y * / 2 <= value den <= 2 * y) by (rewrite Vd; nra).
  split; [exact Fd|]. split; [lra|].
  assert (DI : / value den <= bpow radix2 53).
  { rewrite <- (Rinv_inv (bpow radix2 53)), <- bpow_opp. apply Rinv_le; [apply bpow_gt_0|].
    change (bpow radix2 (- (53))) with ur. lra. }
  assert (DI0 : 0 < / value den) by (apply Rinv_0_lt_compat; lra).
  assert (Eq : 1 / value den = / value den) by (unfold Rdiv; ring).
  assert (Q : Rabs (1 / value den) <= bpow radix2 53) by (rewrite Eq, Rabs_right by lra; exact DI).
  pose proof Q as Q'. apply brnd_abs_pow in Q'; [|lia].
  destruct (b_div_val (b_ofz 1) den F1) as [Vr Fr].
  { apply Rgt_not_eq. unfold Rgt. fold (value den). lra. }
  { fold (value (b_ofz 1)) (value den). rewrite V1. eapply Rle_lt_trans; [exact Q'|]. apply bpow_lt. lia. }
  fold (value (b_ofz 1)) (value den) in Vr. rewrite V1, Eq in Vr.
  change (b_div (b_ofz 1) den) with (b_radius ov) in *. fold (value (b_radius ov)) in Vr.
  split; [exact Fr|].
  assert (DI1 : / 4 <= / value den). { apply Rinv_le; lra. }
  assert (E3 : Rabs (value (b_radius ov) - / value den) <= ur * / value den).
  { rewrite Vr. rewrite <- (Rabs_right (/ value den)) at 3 by lra. apply norm_err. rewrite Rabs_right by lra.
    eapply Rle_trans; [|exact DI1]. apply (bpow_le radix2 (-1022) (-2)). lia. }
  fold y. assert (E4 : Rabs (/ value den - 1 / y) <= (ur + 2 * ur * ur) * (1 / y)).
  { replace (/ value den - 1 / y) with ((y - value den) * / value den * (1 / y)) by (field; lra).
    assert (0 < 1 / y) by (apply Rdiv_lt_0_compat; lra).
    rewrite Rabs_mult, (Rabs_right (1 / y)) by lra. apply Rmult_le_compat_r; [lra|].
    rewrite Rabs_mult, (Rabs_right (/ value den)) by lra.
    apply Rmult_le_reg_r with (value den); [lra|]. rewrite Rmult_assoc, Rinv_l by lra. rewrite Rmult_1_r, Vd.
    apply Rabs_le. assert (0 <= ur * ur * y) by (apply Rmult_le_pos; nra). split; [|nra].
    assert ((ur + 2 * ur * ur) * ((1 - ur) * y) <= (ur + 2 * ur * ur) * brnd y) by (apply Rmult_le_compat_l; nra). nra. }
  assert (R0 : 0 < 1 / y) by (apply Rdiv_lt_0_compat; lra). set (r := 1 / y) in *.
  apply Rabs_le_inv in E3, E4. apply Rabs_le.
  assert (ur * / value den <= ur * (r + (ur + 2 * ur * ur) * r)) by (apply Rmult_le_compat_l; lra).
  assert (ur * ur * r <= ur * r * / 1024) by nra. assert (0 <= ur * ur * ur * r) by nra.
  assert (ur * ur * ur * r <= ur * ur * r) by nra. nra.
Qed.

(** *** The distance between positions *)
Lemma abs_diff_small a b : small 500 a -> small 500 b ->
  finite (abs_diff BA a b) /\ value (abs_diff BA a b) = Rabs (brnd (value a - value b)).
Proof.
  intros Ha Hb. unfold abs_diff. change (le_b BA) with b_le. change (sub BA) with b_minus.
  rewrite b_le_val; [|apply Hb|apply Ha]. fold (value a) (value b). unfold Rleb.
  destruct (Rle_dec (value b) (value a)) as [H|H].
  - destruct (small_minus 500 a b ltac:(lia) Ha Hb) as [[F _] V]. split; [exact F|]. rewrite V. symmetry.
    apply Rabs_right, Rle_ge, brnd_nonneg. lra.
  - destruct (small_minus 500 b a ltac:(lia) Hb Ha) as [[F _] V]. split; [exact F|]. rewrite V.
    replace (value a - value b) with (- (value b - value a)) by ring. rewrite brnd_opp, Rabs_Ropp. symmetry.
    apply Rabs_right, Rle_ge, brnd_nonneg. lra.
Qed.

Lemma cheb_val m x y : moderate m x -> moderate m y ->
  magnitude (chebyshev BA x y) /\ value (chebyshev BA x y) = che_r x y.
Proof.
  intros Hx Hy. assert (E : length x = length y) by (rewrite (moderate_length _ _ Hx), (moderate_length _ _ Hy); reflexivity).
  destruct Hx as [_ Fx], Hy as [_ Fy]. unfold chebyshev, che_r, diffs.
  revert y Fy E. induction Fx as [|a x Ha Fx IH]; intros [|b y] Fy E; try discriminate; cbn [map2 map fold_right].
  - destruct (is_val_zero) as [F [_ V]]. change (zero BA) with b_zero. split; [split; [exact F|]|]; change (value b_zero) with 0; [lra|reflexivity].
  - inversion Fy; subst. injection E as E. destruct (IH y) as [[IF IP] IV]; auto.
    destruct (abs_diff_small a b) as [F V]; auto.
    destruct (max_n_val (abs_diff BA a b) _ F IF) as [F2 V2]. split; [split; [exact F2|]|].
    + eapply Rle_trans; [|apply Req_le; symmetry; exact V2]. eapply Rle_trans; [exact IP|apply Rmax_r].
    + etransitivity; [exact V2|]. f_equal; [exact V|exact IV].
Qed.

(** The largest coordinate difference against a bound. *)
Lemma cheb_norm_le x y B : 0 <= B -> length x = length y ->
  (forall j, (j < length x)%nat -> Rabs (coord x j - coord y j) <= B) -> chebyshev_norm RA sqrt x y <= B.
Proof.
  intros H0 L H. rewrite cheb_real. revert y L H. induction x as [|a x IH]; intros [|b y] L H; try discriminate; simpl; [exact H0|].
  apply Rmax_lub; [apply (H 0%nat); simpl; lia|]. apply IH; [simpl in L; lia|].
  intros j Hj. apply (H (S j)). simpl. lia.
Qed.
Lemma cheb_norm_lt x y B : 0 < B -> length x = length y ->
  (forall j, (j < length x)%nat -> Rabs (coord x j - coord y j) < B) -> chebyshev_norm RA sqrt x y < B.
Proof.
  intros H0 L H. rewrite cheb_real. revert y L H. induction x as [|a x IH]; intros [|b y] L H; try discriminate; simpl; [exact H0|].
  apply Rmax_lub_lt; [apply (H 0%nat); simpl; lia|]. apply IH; [simpl in L; lia|].
  intros j Hj. apply (H (S j)). simpl. lia.
Qed.
Lemma cheb_norm_ge x y j : length x = length y -> (j < length x)%nat -> Rabs (coord x j - coord y j) <= chebyshev_norm RA sqrt x y.
Proof.
  intro L. rewrite cheb_real. revert y L j. induction x as [|a x IH]; intros [|b y] L j Hj; simpl in *; try lia; try discriminate.
  destruct j as [|j]; [apply Rmax_l|]. eapply Rle_trans; [|apply Rmax_r]. apply (IH y); lia.
Qed.

(** *** The grid of a dataset *)
Section Fit.
Variables (n : Z) (m : nat) (X : list (list b64)) (lo hi : nat -> R).
Hypothesis Hn : (1 <= n <= 2 ^ 50)%Z.
Hypothesis HX : X <> [].
Hypothesis Hrows : Forall (moderate m) X.
Hypothesis Hb : column_bounds m (map reals X) lo hi.

Lemma bounds_ok : exists mn dls,
  get_bounds BA b_eps n X = Ok (mkbounds BA n mn dls) /\ length mn = m /\ length dls = m /\
  forall j, (j < m)%nat ->
    small 500 (at_ mn j) /\ value (at_ mn j) = lo j /\ finite (at_ dls j) /\
    bpow radix2 (-52) <= value (at_ dls j) <= bpow radix2 501 /\
    (forall x, In x X -> 0 <= value (at_ x j) - lo j <= value (at_ dls j) * (1 + 2 * ur)) /\
    width n (lo j) (hi j) <= value (at_ dls j) * (1 + 2 * ur) /\
    ((hi j - lo j <= eps64 /\ value (at_ dls j) = IZR n) \/
     (2 * eps64 <= hi j - lo j /\ Rabs (value (at_ dls j) - (hi j - lo j)) <= ur * (hi j - lo j)) \/
     eps64 < hi j - lo j < 2 * eps64).
Proof.
  revert HX Hrows Hb. destruct X as [|x0 X']; [congruence|]. intros _ Hr HB. apply Forall_cons_iff in Hr as [H0 HX'].
  destruct (fold_rows_pick m (min_n BA) min_pick X' HX' x0 H0) as [M1 P1].
  destruct (fold_rows_pick m (max_n BA) max_pick X' HX' x0 H0) as [M2 P2].
  pose proof (fold_rows_min m X' HX' x0 H0) as L1. pose proof (fold_rows_max m X' HX' x0 H0) as L2.
  unfold get_bounds.
  set (mn := fold_rows BA (min_n BA) x0 X') in *. set (mx := fold_rows BA (max_n BA) x0 X') in *.
  exists mn, (map (unit_ n) (map2 b_minus mx mn)). split; [reflexivity|].
  assert (Ln := moderate_length _ _ M1). assert (Lx := moderate_length _ _ M2).
  split; [exact Ln|]. assert (Ld : length (map2 b_minus mx mn) = m) by (rewrite map2_length; [exact Lx|congruence]).
  split; [rewrite map_length; exact Ld|].
  intros j Hj. assert (S1 := moderate_at _ _ _ M1 Hj). assert (S2 := moderate_at _ _ _ M2 Hj).
  split; [exact S1|].
  assert (V : value (at_ mn j) = lo j /\ value (at_ mx j) = hi j).
  { destruct (HB j Hj) as [[xl [Il El]] [[xh [Ih Eh]] Hall]].
    apply in_map_iff in Il as [yl [<- Il]]. apply in_map_iff in Ih as [yh [<- Ih]]. rewrite coord_at in El, Eh.
    destruct (P1 j Hj) as [z1 [I1 Q1]]. destruct (P2 j Hj) as [z2 [I2 Q2]].
    pose proof (Hall _ (in_map reals _ _ I1)) as A1. pose proof (Hall _ (in_map reals _ _ I2)) as A2.
    rewrite coord_at in A1, A2. rewrite <- Q1 in A1. rewrite <- Q2 in A2.
    pose proof (L1 j yl Hj Il) as B1. pose proof (L2 j yh Hj Ih) as B2. lra. }
  destruct V as [V1 V2]. split; [exact V1|].
  assert (Hle : value (at_ mn j) <= value (at_ mx j)).
  { pose proof (L1 j x0 Hj (or_introl eq_refl)). pose proof (L2 j x0 Hj (or_introl eq_refl)). lra. }
  assert (Ej : at_ (map (unit_ n) (map2 b_minus mx mn)) j = unit_ n (b_minus (at_ mx j) (at_ mn j))).
  { unfold at_ at 1. rewrite (nth_indep _ b_zero (unit_ n b_zero)) by (rewrite map_length; lia).
    rewrite map_nth. fold (at_ (map2 b_minus mx mn) j). rewrite at_map2 by congruence. reflexivity. }
  rewrite Ej. destruct (unit_ok n _ _ Hn S1 S2 Hle) as [U1 [U2 [U3 [U4 U5]]]]. cbv zeta in *.
  rewrite V1, V2 in *. split; [exact U1|]. split; [exact U2|]. split; [|split; [exact U4|exact U5]].
  intros x Ix. destruct (HB j Hj) as [_ [_ Hall]]. pose proof (Hall _ (in_map reals _ _ Ix)) as A. rewrite coord_at in A. lra.
Qed.

Variables (mn dls : list b64).
Hypothesis Lmn : length mn = m.
Hypothesis Ldl : length dls = m.
Notation bnd := (mkbounds BA n mn dls).
Notation g j := (gam n (at_ mn j) (at_ dls j)).
Notation cell j := (cellno n (at_ mn j) (at_ dls j)).
Notation middle j := (mid n (at_ mn j) (at_ dls j)).

Lemma gamma_length_b (x : list b64) : length x = m -> length (gamma_n BA bnd x) = m.
Proof.
  intro L. unfold gamma_n. cbn [b_n b_min b_delta].
  assert (E : length (map2 b_minus x mn) = m) by (rewrite map2_length; [exact L|congruence]).
  etransitivity; [apply map2_length; exact (eq_trans E (eq_sym Ldl))|exact E].
Qed.
Lemma gamma_at (x : list b64) (j : nat) : length x = m -> (j < m)%nat -> at_ (gamma_n BA bnd x) j = g j (at_ x j).
Proof.
  intros L Hj. unfold gamma_n. cbn [b_n b_min b_delta].
  assert (E : length (map2 b_minus x mn) = m) by (rewrite map2_length; [exact L|congruence]).
  etransitivity; [apply at_map2; [apply (eq_ind_r (fun k => (j < k)%nat) Hj E)|exact (eq_trans E (eq_sym Ldl))]|].
  unfold gam. change (div BA) with b_div. change (mul BA) with b_mult. change (ofz BA) with b_ofz. do 2 f_equal.
  apply (at_map2 b_minus x mn j); [lia|congruence].
Qed.
Lemma offset_length (x : list b64) : length x = m -> length (offset BA bnd x) = m.
Proof. intro L. unfold offset. rewrite map_length. apply gamma_length_b, L. Qed.
Lemma offset_at (x : list b64) (j : nat) : length x = m -> (j < m)%nat -> nth j (offset BA bnd x) 0%Z = cell j (at_ x j).
Proof.
  intros L Hj. unfold offset, cellno. cbn [b_n].
  set (f := fun g0 : ModelArith.num BA => Z.min (n - 1) (floorz BA g0)).
  rewrite (nth_indep _ 0%Z (f b_zero)) by (rewrite map_length, gamma_length_b; assumption).
  rewrite map_nth. unfold f. change (floorz BA) with b_floor. f_equal. f_equal. apply gamma_at; assumption.
Qed.
Lemma phi_at (x : list b64) (j : nat) : length x = m -> (j < m)%nat -> at_ (phi BA bnd x) j = middle j (cell j (at_ x j)).
Proof.
  intros L Hj. unfold phi, gamma_n_inv. cbn [b_n b_min b_delta].
  set (f := (fun o : Z => b_plus (half BA) (b_ofz o)) : Z -> b64).
  assert (Lo : length (map f (offset BA bnd x)) = m) by (rewrite map_length; apply offset_length, L).
  assert (E : length (map2 b_mult dls (map f (offset BA bnd x))) = m) by (rewrite map2_length; [exact Ldl|congruence]).
  etransitivity; [apply at_map2; [rewrite Lmn; exact Hj|exact (eq_trans Lmn (eq_sym E))]|].
  unfold mid. change (add BA) with b_plus. change (div BA) with b_div. change (ofz BA) with b_ofz. do 2 f_equal.
  etransitivity; [apply (at_map2 b_mult dls (map f (offset BA bnd x)) j); [lia|exact (eq_trans Ldl (eq_sym Lo))]|]. f_equal.
  unfold at_ at 1. rewrite (nth_indep _ b_zero (f 0%Z)) by lia. rewrite map_nth. unfold f. do 2 f_equal. apply offset_at; assumption.
Qed.
Lemma phi_length_b (x : list b64) : length x = m -> length (phi BA bnd x) = m.
Proof.
  intro L. unfold phi, gamma_n_inv. cbn [b_n b_min b_delta].
  set (f := (fun o : Z => b_plus (half BA) (b_ofz o)) : Z -> b64).
  assert (Lo : length (map f (offset BA bnd x)) = m) by (rewrite map_length; apply offset_length, L).
  assert (E : length (map2 b_mult dls (map f (offset BA bnd x))) = m) by (rewrite map2_length; [exact Ldl|congruence]).
  etransitivity; [apply map2_length; exact (eq_trans Lmn (eq_sym E))|exact Lmn].
Qed.

Hypothesis Haxis : forall j, (j < m)%nat ->
    small 500 (at_ mn j) /\ value (at_ mn j) = lo j /\ finite (at_ dls j) /\
    bpow radix2 (-52) <= value (at_ dls j) <= bpow radix2 501 /\
    (forall x, In x X -> 0 <= value (at_ x j) - lo j <= value (at_ dls j) * (1 + 2 * ur)) /\
    width n (lo j) (hi j) <= value (at_ dls j) * (1 + 2 * ur) /\
    ((hi j - lo j <= eps64 /\ value (at_ dls j) = IZR n) \/
     (2 * eps64 <= hi j - lo j /\ Rabs (value (at_ dls j) - (hi j - lo j)) <= ur * (hi j - lo j)) \/
     eps64 < hi j - lo j < 2 * eps64).
Variable E : R.
Hypothesis HE : forall j, (j < m)%nat -> grid_error n (lo j) (hi j) <= E.
Hypothesis HE1 : 127 * ur * IZR n <= E < 1.

Notation A_ j := (Rabs (lo j) / value (at_ dls j)).

Lemma N1_ : 1 <= IZR n. Proof. apply IZR_le. lia. Qed.

Lemma width_pos j : (j < m)%nat -> 0 < width n (lo j) (hi j).
Proof.
  intros Hj. unfold width. pose proof N1_. assert (0 < eps64) by apply bpow_gt_0.
  destruct (Rle_dec (hi j - lo j) eps64); lra.
Qed.

Lemma axis_error j : (j < m)%nat -> ur * IZR n * (A_ j + 63) <= E / 2.
Proof.
  intro Hj. pose proof (HE j Hj) as H. unfold grid_error in H. rewrite eps_ur in H.
  pose proof (width_pos j Hj) as W. destruct (Haxis j Hj) as [_ [_ [_ [[D1 _] [_ [Wd _]]]]]].
  assert (D0 : 0 < value (at_ dls j)) by (pose proof (bpow_gt_0 radix2 (-52)); lra).
  pose proof N1_ as N1. pose proof ur_pos as U. pose proof ur_lt as U1.
  set (w := width n (lo j) (hi j)) in *. set (Dv := value (at_ dls j)) in *. set (L := Rabs (lo j)) in *.
  assert (L0 : 0 <= L) by apply Rabs_pos.
  assert (Q : L / Dv <= L / w * (1 + 2 * ur)).
  { unfold Rdiv. rewrite Rmult_assoc. apply Rmult_le_compat_l; [exact L0|].
    apply Rmult_le_reg_r with Dv; [exact D0|]. rewrite Rinv_l by lra.
    apply Rmult_le_reg_l with w; [exact W|]. replace (w * (/ w * (1 + 2 * ur) * Dv)) with ((1 + 2 * ur) * Dv) by (field; lra). lra. }
  assert (Q0 : 0 <= L / w) by (apply Rmult_le_pos; [exact L0|apply Rlt_le, Rinv_0_lt_compat, W]).
  assert (UN : 0 < ur * IZR n) by (apply Rmult_lt_0_compat; lra).
  assert (P : ur * IZR n * (L / w) <= / 2) by (destruct HE1; nra).
  assert (P2 : ur * IZR n * (L / Dv) <= ur * IZR n * (L / w) + ur).
  { apply Rle_trans with (ur * IZR n * (L / w * (1 + 2 * ur))); [apply Rmult_le_compat_l; lra|].
    assert (ur * (ur * IZR n * (L / w)) <= ur * / 2) by (apply Rmult_le_compat_l; lra). nra. }
  nra.
Qed.

(** Points whose positions are close to the grid. *)
Definition near (v : list b64) : Prop :=
  length v = m /\ forall j, (j < m)%nat -> finite (g j (at_ v j)) /\ -1 <= value (g j (at_ v j)) <= IZR n + 1.

Lemma near_x x : In x X -> near x.
Proof.
  intro Ix. pose proof Hrows as Hr. rewrite Forall_forall in Hr. pose proof (Hr x Ix) as Mx.
  split; [apply (moderate_length _ _ Mx)|]. intros j Hj. destruct (Haxis j Hj) as [S1 [V1 [F [B [T _]]]]].
  rewrite <- V1 in T. destruct (T x Ix) as [T0 T1].
  destruct (data_pos n (at_ mn j) (at_ dls j) Hn S1 B (at_ x j) (moderate_at _ _ _ Mx Hj) T0 T1) as [D1 [D2 _]].
  split; [exact D1|]. assert (8 * ur * IZR n <= 1) by (destruct HE1; nra). lra.
Qed.

Lemma cell_x x j : In x X -> (j < m)%nat ->
  (0 <= cell j (at_ x j) <= n - 1)%Z /\ Rabs (value (g j (at_ x j)) - (IZR (cell j (at_ x j)) + / 2)) <= / 2 + 8 * ur * IZR n.
Proof.
  intros Ix Hj. pose proof Hrows as Hr. rewrite Forall_forall in Hr. pose proof (Hr x Ix) as Mx.
  destruct (Haxis j Hj) as [S1 [V1 [F [B [T _]]]]]. rewrite <- V1 in T. destruct (T x Ix) as [T0 T1].
  destruct (data_pos n (at_ mn j) (at_ dls j) Hn S1 B (at_ x j) (moderate_at _ _ _ Mx Hj) T0 T1) as [_ [_ D]]. exact D.
Qed.

Lemma middle_x x j : In x X -> (j < m)%nat ->
  let v := g j (middle j (cell j (at_ x j))) in
  finite v /\ Rabs (value v - (IZR (cell j (at_ x j)) + / 2)) <= ur * IZR n * (A_ j + 14).
Proof.
  intros Ix Hj. cbv zeta. destruct (cell_x x j Ix Hj) as [C _]. destruct (Haxis j Hj) as [S1 [V1 [F [B _]]]].
  pose proof (axis_error j Hj) as AE. rewrite <- V1 in AE.
  pose proof ur_pos as U. pose proof N1_ as N1. assert (UN : 0 < ur * IZR n) by (apply Rmult_lt_0_compat; lra).
  destruct (mid_pos n (at_ mn j) (at_ dls j) Hn S1 F B (cell j (at_ x j)) C) as [_ [M2 M3]].
  { destruct HE1. rewrite (Rmult_comm (IZR n)). nra. }
  split; [exact M2|]. rewrite V1 in M3. rewrite (Rmult_comm ur). exact M3.
Qed.

Lemma near_phi x : In x X -> near (phi BA bnd x).
Proof.
  intro Ix. destruct (near_x x Ix) as [L _]. split; [apply phi_length_b, L|]. intros j Hj.
  rewrite phi_at by assumption. destruct (middle_x x j Ix Hj) as [F M]. split; [exact F|].
  destruct (cell_x x j Ix Hj) as [[C0 C1] _]. apply IZR_le in C0, C1. rewrite minus_IZR in C1.
  pose proof (axis_error j Hj) as AE. pose proof ur_pos as U. pose proof N1_ as N1.
  assert (UN : 0 < ur * IZR n) by (apply Rmult_lt_0_compat; lra). apply Rabs_le_inv in M. destruct HE1. nra.
Qed.

Lemma near_moderate v : near v -> moderate m (gamma_n BA bnd v).
Proof.
  intros [L H]. assert (Lg := gamma_length_b v L). split; [exact Lg|]. apply all_at. intros j Hj.
  assert (Hj' : (j < m)%nat) by (rewrite <- Lg; exact Hj).
  destruct (H j Hj') as [F B]. rewrite gamma_at by assumption. split; [exact F|].
  assert (N2 : IZR n <= bpow radix2 50) by (change (bpow radix2 50) with (IZR (2 ^ 50)); apply IZR_le; lia).
  assert (bpow radix2 50 + 1 <= bpow radix2 51).
  { change (bpow radix2 51) with (2 * bpow radix2 50). pose proof (bpow_le radix2 0 50 ltac:(lia)). change (bpow radix2 0) with 1 in *. lra. }
  pose proof N1_. apply Rle_trans with (bpow radix2 51); [apply Rabs_le; lra|apply bpow_le; lia].
Qed.

Definition gd := pullback (gamma_n BA bnd) (chebyshev BA).
Definition GD (x y : list b64) : R := chebyshev_norm RA sqrt (reals (gamma_n BA bnd x)) (reals (gamma_n BA bnd y)).

Lemma reals_length x : length (reals x) = length x.
Proof. apply map_length. Qed.

Lemma GD_le v w : near v -> near w -> GD v w <= IZR n + 2.
Proof.
  intros [Lv Hv] [Lw Hw]. pose proof N1_. apply cheb_norm_le; [lra| |].
  - rewrite !reals_length, !gamma_length_b by assumption. reflexivity.
  - intros j Hj. rewrite reals_length, gamma_length_b in Hj by assumption. rewrite !coord_at, !gamma_at by assumption.
    destruct (Hv j Hj) as [_ A], (Hw j Hj) as [_ B]. apply Rabs_le. lra.
Qed.

Lemma gd_val v w : near v -> near w -> magnitude (gd v w) /\ Rabs (value (gd v w) - GD v w) <= ur * (IZR n + 2).
Proof.
  intros Hv Hw. destruct (cheb_val m _ _ (near_moderate v Hv) (near_moderate w Hw)) as [M V].
  split; [exact M|]. change (gd v w) with (chebyshev BA (gamma_n BA bnd v) (gamma_n BA bnd w)).
  replace (value (chebyshev BA (gamma_n BA bnd v) (gamma_n BA bnd w))) with (che_r (gamma_n BA bnd v) (gamma_n BA bnd w)) by (symmetry; exact V).
  eapply Rle_trans; [apply che_err|]. apply Rmult_le_compat_l; [apply Rlt_le, ur_pos|]. apply GD_le; assumption.
Qed.

Lemma che_r_sym x y : che_r x y = che_r y x.
Proof.
  unfold che_r, diffs. f_equal. revert y. induction x as [|a x IH]; intros [|b y]; cbn [map2 map]; try reflexivity.
  f_equal; [|apply IH]. replace (value b - value a) with (- (value a - value b)) by ring. rewrite brnd_opp, Rabs_Ropp. reflexivity.
Qed.

Lemma gd_ok L : (forall v, In v L -> near v) -> distances_ok gd L /\ triangle_on GD L /\ computes gd GD (ur * (IZR n + 2)) L.
Proof.
  intro H. split; [|split].
  - intros v w Iv Iw. destruct (cheb_val m _ _ (near_moderate v (H v Iv)) (near_moderate w (H w Iw))) as [M V].
    destruct (cheb_val m _ _ (near_moderate w (H w Iw)) (near_moderate v (H v Iv))) as [_ V'].
    split; [exact M|]. etransitivity; [exact V|]. rewrite che_r_sym. symmetry. exact V'.
  - intros u v w Iu Iv Iw. destruct (chebyshev_metric m). unfold GD.
    apply m_triangle; unfold dim; rewrite reals_length, gamma_length_b; try reflexivity; apply H; assumption.
  - intros v w Iv Iw. apply gd_val; auto.
Qed.

(** Computed positions against positions on the real grid. *)
Lemma pos_err y j : In y X -> (j < m)%nat -> (hi j - lo j <= eps64 \/ 2 * eps64 <= hi j - lo j) ->
  Rabs (value (g j (at_ y j)) - grid_pos n eps64 lo hi j (value (at_ y j))) <= 8 * ur * IZR n.
Proof.
  intros Iy Hj Hbord. pose proof Hrows as Hr. rewrite Forall_forall in Hr. pose proof (Hr y Iy) as My.
  destruct (Haxis j Hj) as [S1 [V1 [F [B [T [_ W]]]]]]. destruct (T y Iy) as [T0 T1].
  assert (S3 : small 503 (at_ y j)).
  { destruct (moderate_at _ _ _ My Hj) as [F' B']. split; [exact F'|]. eapply Rle_trans; [exact B'|]. apply bpow_le. lia. }
  destruct (gam_val n (at_ mn j) (at_ dls j) Hn S1 B (at_ y j) S3) as [_ [G _]]. rewrite V1 in G.
  assert (D0 : 0 < value (at_ dls j)) by (pose proof (bpow_gt_0 radix2 (-52)); lra).
  pose proof N1_ as N1. pose proof ur_pos as U. pose proof ur_lt as U1.
  set (v := value (g j (at_ y j))) in *. set (t := value (at_ y j) - lo j) in *. set (Dv := value (at_ dls j)) in *.
  set (w := hi j - lo j) in *. assert (E0 : 0 < eps64) by apply bpow_gt_0.
  assert (Q1 : t / Dv <= 1 + 2 * ur).
  { apply Rmult_le_reg_r with Dv; [exact D0|]. unfold Rdiv. rewrite Rmult_assoc, Rinv_l by lra. lra. }
  assert (Q0 : 0 <= t / Dv) by (apply Rmult_le_pos; [exact T0|apply Rlt_le, Rinv_0_lt_compat, D0]).
  replace (IZR n * t / Dv) with (IZR n * (t / Dv)) in G by (unfold Rdiv; ring).
  rewrite (Rabs_right (IZR n * (t / Dv))) in G by nra.
  assert (G2 : 4 * ur * (IZR n * (t / Dv)) + ur <= 6 * ur * IZR n).
  { assert (ur * IZR n * (t / Dv) <= ur * IZR n * (1 + 2 * ur)) by (apply Rmult_le_compat_l; nra).
    assert (ur * IZR n * ur <= ur * IZR n * / 1024) by (apply Rmult_le_compat_l; [nra|exact U1]). assert (ur <= ur * IZR n) by nra. lra. }
  unfold grid_pos. fold w. fold t. destruct (Rle_dec w eps64) as [C|C].
  - destruct W as [[_ W]|[[W _]|W]]; [|exfalso; lra|exfalso; lra].
    replace (IZR n * (t / Dv)) with t in G by (rewrite W; field; lra). apply Rabs_le_inv in G. apply Rabs_le.
    assert (t = IZR n * (t / Dv)) by (rewrite W; field; lra). nra.
  - destruct W as [[W _]|[[W1 W2]|W]]; [contradiction| |exfalso; lra].
    assert (W0 : 0 < w) by lra.
    assert (K : Rabs (IZR n * (t / Dv) - IZR n * t / w) <= 2 * ur * IZR n).
    { replace (IZR n * (t / Dv) - IZR n * t / w) with (IZR n * (t / Dv) * ((w - Dv) / w)) by (field; lra).
      assert (Kd : Rabs ((w - Dv) / w) <= ur).
      { unfold Rdiv. rewrite Rabs_mult, (Rabs_right (/ w)) by (apply Rle_ge, Rlt_le, Rinv_0_lt_compat, W0).
        apply Rmult_le_reg_r with w; [exact W0|]. rewrite Rmult_assoc, Rinv_l by lra. rewrite Rmult_1_r, Rabs_minus_sym. exact W2. }
      rewrite Rabs_mult, Rabs_right by nra.
      apply Rle_trans with (IZR n * (t / Dv) * ur); [apply Rmult_le_compat_l; [nra|exact Kd]|].
      assert (ur * IZR n * (t / Dv) <= ur * IZR n * (1 + 2 * ur)) by (apply Rmult_le_compat_l; nra).
      assert (ur * IZR n * ur <= ur * IZR n * / 1024) by (apply Rmult_le_compat_l; [nra|exact U1]). nra. }
    apply Rabs_le_inv in G, K. apply Rabs_le. lra.
Qed.

Variable c : cubical BA.
Variable ov : b64.
Hypothesis Hcn : cu_n_intervals BA c = n.
Hypothesis Hco : cu_overlap_frac BA c = Some ov.
Hypothesis Fov : finite ov.
Hypothesis Hov : 0 < value ov < 1.
Hypothesis Hlr : opt_magnitude (cu_leaf_radius BA c).
Hypothesis Hcap : (1 <= cu_leaf_capacity BA c)%nat.
Hypothesis Hkind : tp_kind (cu_tree BA c) <> OtherKind.
Hypothesis Hgb : get_bounds BA b_eps n X = Ok bnd.
Notation rt := (value (b_radius ov)).

Lemma fit_search : exists search, cubical_fit_state BA b_eps c X = Ok (bnd, search) /\
  forall x, In x X -> exists ids, search (phi BA bnd x) = Ok ids /\ NoDup ids /\
    (forall i, In i ids -> exists y, nth_error X i = Some y /\ GD (phi BA bnd x) y < rt + ur * (IZR n + 2)) /\
    forall i y, nth_error X i = Some y -> GD (phi BA bnd x) y < rt - 4 * (ur * (IZR n + 2)) -> In i ids.
Proof.
  destruct (radius_ok ov Fov Hov) as [Fd [Pd [Fr Br]]]. cbv zeta in *.
  assert (Nx : forall v, In v X -> near v) by exact near_x.
  assert (R0 : 0 < rt).
  { assert (0 < 1 / (2 - 2 * value ov)) by (apply Rdiv_lt_0_compat; lra). apply Rabs_le_inv in Br.
    pose proof ur_lt. pose proof ur_pos. nra. }
  unfold cubical_fit_state. rewrite Hco. cbn [bind].
  assert (E1 : le_b BA ov (zero BA) = false).
  { change (b_le ov b_zero = false). rewrite b_le_val by (first [exact Fov|reflexivity]). apply Rleb_false.
    change (rv b_zero) with 0. fold (value ov). lra. }
  rewrite E1, Hcn. unfold ModelArith.num in *. rewrite Hgb. cbn [bind].
  change (sub BA (ofz BA 2) (mul BA (ofz BA 2) ov)) with (b_minus (b_ofz 2) (b_mult (b_ofz 2) ov)).
  set (den := b_minus (b_ofz 2) (b_mult (b_ofz 2) ov)) in *.
  assert (E2 : eq_b BA den (zero BA) = false).
  { unfold eq_b. change (b_le den b_zero && b_le b_zero den = false).
    rewrite (b_le_val den b_zero Fd eq_refl). replace (Rleb (rv den) (rv b_zero)) with false; [reflexivity|].
    symmetry. apply Rleb_false. change (rv b_zero) with 0. exact Pd. }
  rewrite E2. change (div BA (ofz BA 1) den) with (b_radius ov).
  match goal with |- context [ball_fit _ _ _ _ _ ?bc X] => set (bc0 := bc) end.
  destruct (gd_ok X Nx) as [Ok1 _].
  destruct (ball_search_gap (abs_diff BA) abs_diff_fits gd bc0 X) as [search [E3 Q]]; auto.
  { split; [exact Fr|]. cbn [bc_radius bc0]. lra. }
  match goal with |- context [bind ?e _] =>
    change e with (ball_fit b_le b_lt (abs_diff BA) b_zero gd bc0 X) end.
  exists search. rewrite E3. cbn [bind]. split; [reflexivity|]. intros x Ix.
  assert (Nq : forall v, In v (phi BA bnd x :: X) -> near v).
  { intros v [<-|Iv]; [apply near_phi, Ix|apply Nx, Iv]. }
  destruct (gd_ok _ Nq) as [K1 [K2 K3]]. destruct (Q _ K1) as [ids [E4 [Nd [S1 S2]]]].
  exists ids. split; [exact E4|]. split; [exact Nd|]. split.
  - intros i Hi. destruct (S1 i Hi) as [y [N D]]. exists y. split; [exact N|].
    pose proof (K3 (phi BA bnd x) y (or_introl eq_refl) (or_intror (nth_error_In _ _ N))) as K. apply Rabs_le_inv in K.
    cbn [bc_radius bc0] in D. lra.
  - intros i y N D. exact (S2 GD _ K2 K3 i y N D).
Qed.

Lemma search_own x search ids : In x X ->
  (forall i y, nth_error X i = Some y -> GD (phi BA bnd x) y < rt - 4 * (ur * (IZR n + 2)) -> In i ids) ->
  search (phi BA bnd x) = Ok ids -> E < value ov -> forall i, nth_error X i = Some x -> In i ids.
Proof.
  intros Ix S _ Ho i Ni. apply (S i x Ni). destruct (near_x x Ix) as [L _].
  destruct (radius_ok ov Fov Hov) as [_ [_ [_ Br]]]. cbv zeta in Br. apply Rabs_le_inv in Br.
  pose proof N1_ as N1. pose proof ur_pos as U. pose proof ur_lt as U1.
  assert (UN : ur <= ur * IZR n) by nra.
  assert (R1 : 1 / 2 + value ov / 2 <= 1 / (2 - 2 * value ov)).
  { apply Rmult_le_reg_r with (2 - 2 * value ov); [lra|]. unfold Rdiv at 3. rewrite Rmult_assoc, Rinv_l by lra. nra. }
  assert (R2 : rt >= 1 / 2 + value ov / 2 - 3 * ur).
  { assert ((1 / 2 + value ov / 2) * (1 - 3 * ur) <= 1 / (2 - 2 * value ov) * (1 - 3 * ur)) by (apply Rmult_le_compat_r; lra). nra. }
  apply cheb_norm_lt.
  - destruct HE1. nra.
  - rewrite !reals_length, !gamma_length_b by (first [exact L|apply phi_length_b, L]). reflexivity.
  - intros j Hj. rewrite reals_length, gamma_length_b in Hj by (apply phi_length_b, L).
    rewrite !coord_at, !gamma_at by (first [exact L|exact Hj|apply phi_length_b, L]).
    rewrite phi_at by assumption. destruct (middle_x x j Ix Hj) as [_ M]. destruct (cell_x x j Ix Hj) as [_ C].
    pose proof (axis_error j Hj) as AE. apply Rabs_le_inv in M, C. apply Rabs_def1; nra.
Qed.

(** What a search finds: the hypercube of the cell, up to [E]. *)
Lemma search_cube x ids : In x X -> value ov <= 1 / 2 ->
  (forall j, (j < m)%nat -> hi j - lo j <= eps64 \/ 2 * eps64 <= hi j - lo j) ->
  NoDup ids ->
  (forall i, In i ids -> exists y, nth_error X i = Some y /\ GD (phi BA bnd x) y < rt + ur * (IZR n + 2)) ->
  (forall i y, nth_error X i = Some y -> GD (phi BA bnd x) y < rt - 4 * (ur * (IZR n + 2)) -> In i ids) ->
  let p := grid_pos n eps64 lo hi in let k := offset BA bnd x in
  near_cell E m n p (reals x) k /\ cube_up_to E m (1 / (2 - 2 * value ov)) p (map reals X) k ids.
Proof.
  intros Ix Ho Hbord Nd S1 S2. cbv zeta. destruct (near_x x Ix) as [L _].
  destruct (radius_ok ov Fov Hov) as [_ [_ [_ Br]]]. cbv zeta in Br. apply Rabs_le_inv in Br.
  pose proof N1_ as N1. pose proof ur_pos as U. pose proof ur_lt as U1.
  assert (UN : ur <= ur * IZR n) by nra. set (r := 1 / (2 - 2 * value ov)) in *.
  assert (R0 : 0 < r) by (apply Rdiv_lt_0_compat; lra).
  assert (R1 : r <= 1).
  { unfold r. apply Rmult_le_reg_r with (2 - 2 * value ov); [lra|]. unfold Rdiv. rewrite Rmult_assoc, Rinv_l by lra. lra. }
  assert (Rt : r - 3 * ur <= rt <= r + 3 * ur) by nra.
  assert (Lp := phi_length_b x L).
  split; [split; [apply offset_length, L|]|split; [exact Nd|split]].
  - intros j Hj. rewrite offset_at by assumption. destruct (cell_x x j Ix Hj) as [C0 C1]. split; [exact C0|].
    rewrite coord_at. pose proof (pos_err x j Ix Hj (Hbord j Hj)) as P. apply Rabs_le_inv in P, C1. apply Rabs_le. destruct HE1. nra.
  - intros i Hi. destruct (S1 i Hi) as [y [Ny D]]. exists (reals y).
    split; [rewrite nth_error_map, Ny; reflexivity|]. intros j Hj. rewrite offset_at by assumption.
    assert (Iy := nth_error_In _ _ Ny). destruct (near_x y Iy) as [Ly _].
    pose proof (cheb_norm_ge (reals (gamma_n BA bnd (phi BA bnd x))) (reals (gamma_n BA bnd y)) j) as G.
    rewrite !reals_length, !gamma_length_b in G by assumption. specialize (G eq_refl Hj).
    rewrite !coord_at, !gamma_at in G by assumption. rewrite phi_at in G by assumption.
    change (chebyshev_norm RA sqrt (reals (gamma_n BA bnd (phi BA bnd x))) (reals (gamma_n BA bnd y))) with (GD (phi BA bnd x) y) in G.
    destruct (middle_x x j Ix Hj) as [_ M]. pose proof (pos_err y j Iy Hj (Hbord j Hj)) as P.
    pose proof (axis_error j Hj) as AE. rewrite coord_at. apply Rabs_le_inv in M, P, G. apply Rabs_def1; destruct HE1; nra.
  - intros i y Ny C. rewrite nth_error_map in Ny. destruct (nth_error X i) as [y'|] eqn:N; [|discriminate].
    injection Ny as <-. rename y' into y. apply (S2 i y N). assert (Iy := nth_error_In _ _ N). destruct (near_x y Iy) as [Ly _].
    apply cheb_norm_lt.
    + destruct (Rlt_le_dec 0 (rt - 4 * (ur * (IZR n + 2)))) as [P|P]; [exact P|]. exfalso.
      assert (1 / 2 <= r). { unfold r. apply Rmult_le_reg_r with (2 - 2 * value ov); [lra|]. unfold Rdiv at 2. rewrite Rmult_assoc, Rinv_l by lra. lra. }
      destruct HE1. nra.
    + rewrite !reals_length, !gamma_length_b by assumption. reflexivity.
    + intros j Hj. rewrite reals_length, gamma_length_b in Hj by assumption.
      rewrite !coord_at, !gamma_at by assumption. rewrite phi_at by assumption.
      specialize (C j Hj). rewrite offset_at, coord_at in C by assumption.
      destruct (middle_x x j Ix Hj) as [_ M]. pose proof (pos_err y j Iy Hj (Hbord j Hj)) as P.
      pose proof (axis_error j Hj) as AE. apply Rabs_le_inv in M, P. apply Rabs_def2 in C. apply Rabs_def1; destruct HE1; nra.
Qed.
End Fit.

Section Cover.
Variables (c : cubical BA) (m : nat) (X : list (list b64)) (lo hi : nat -> R) (ov : b64) (E : R).
Notation n := (cu_n_intervals BA c).
Hypothesis Hm : (1 <= m)%nat.
Hypothesis Hn : (1 <= n <= 2 ^ 50)%Z.
Hypothesis HX : X <> [].
Hypothesis Hrows : Forall (moderate m) X.
Hypothesis Hb : column_bounds m (map reals X) lo hi.
Hypothesis Hco : cu_overlap_frac BA c = Some ov.
Hypothesis Fov : finite ov.
Hypothesis HE : forall j, (j < m)%nat -> grid_error n (lo j) (hi j) <= E.
Hypothesis Hov : E < value ov < 1.
Hypothesis Hlr : opt_magnitude (cu_leaf_radius BA c).
Hypothesis Hcap : (1 <= cu_leaf_capacity BA c)%nat.
Hypothesis Hkind : tp_kind (cu_tree BA c) <> OtherKind.

Lemma E_bounds : 127 * ur * IZR n <= E < 1.
Proof.
  split; [|lra]. pose proof (HE 0%nat ltac:(lia)) as H. unfold grid_error in H. rewrite eps_ur in H.
  assert (N1 : 1 <= IZR n) by (apply IZR_le; lia). pose proof ur_pos.
  assert (0 <= Rabs (lo 0%nat) / width n (lo 0%nat) (hi 0%nat)).
  { apply Rmult_le_pos; [apply Rabs_pos|]. apply Rlt_le, Rinv_0_lt_compat. unfold width.
    assert (0 < eps64) by apply bpow_gt_0. destruct (Rle_dec (hi 0%nat - lo 0%nat) eps64); lra. }
  assert (0 < ur * IZR n) by nra. nra.
Qed.

Lemma cubical_double alg : alg <> OtherAlgorithm ->
  let net := cubical_apply BA b_eps alg c X in
  stops net = None /\ covers (length X) (yields net) /\
  (forall s, In s (yields net) -> s <> [] /\ NoDup s /\ forall i, In i s -> (i < length X)%nat) /\
  (value ov <= 1 / 2 -> (forall j, (j < m)%nat -> hi j - lo j <= eps64 \/ 2 * eps64 <= hi j - lo j) ->
   forall s, In s (yields net) -> exists x k, In x X /\
     near_cell E m n (grid_pos n eps64 lo hi) (reals x) k /\
     cube_up_to E m (1 / (2 - 2 * value ov)) (grid_pos n eps64 lo hi) (map reals X) k s).
Proof.
  intros Ha. pose proof E_bounds as HE1. assert (Hov' : 0 < value ov < 1).
  { destruct HE1 as [P _]. pose proof ur_pos. assert (1 <= IZR n) by (apply IZR_le; lia). nra. }
  destruct (bounds_ok n m X lo hi Hn HX Hrows Hb) as [mn [dls [G [Lm [Ld Hax]]]]].
  destruct (fit_search n m X lo hi Hn HX Hrows mn dls Lm Ld Hax E HE HE1 c ov eq_refl Hco Fov Hov' Hlr Hcap Hkind G) as [search [Es Q]].
  set (bnd := mkbounds BA n mn dls) in *.
  destruct (cubical_any BA b_eps c X bnd search
    (fun k s => (s <> [] /\ NoDup s /\ forall i, In i s -> (i < length X)%nat) /\
       (value ov <= 1 / 2 -> (forall j, (j < m)%nat -> hi j - lo j <= eps64 \/ 2 * eps64 <= hi j - lo j) ->
       exists x, In x X /\ near_cell E m n (grid_pos n eps64 lo hi) (reals x) k /\
       cube_up_to E m (1 / (2 - 2 * value ov)) (grid_pos n eps64 lo hi) (map reals X) k s)) alg HX Ha Es) as [S1 [S2 S3]].
  - intros x Ix. destruct (Q x Ix) as [ids [E1 [Nd [A1 A2]]]]. exists ids. split; [exact E1|].
    pose proof (search_own n m X lo hi Hn Hrows mn dls Lm Ld Hax E HE HE1 ov Fov Hov' x search ids Ix A2 E1 (proj1 Hov)) as Own.
    split; [|exact Own]. split.
    + split; [|split; [exact Nd|]].
      * destruct (In_nth_error _ _ Ix) as [i Ni]. pose proof (Own i Ni). intros ->. contradiction.
      * intros i Hi. destruct (A1 i Hi) as [y [Ny _]]. eapply nth_error_lt, Ny.
    + intros Ho Hbord. exists x. split; [exact Ix|].
      exact (search_cube n m X lo hi Hn Hrows mn dls Lm Ld Hax E HE HE1 ov Fov Hov' x ids Ix Ho Hbord Nd A1 A2).
  - split; [exact S1|]. split; [exact S2|]. split.
    + intros s Hs. destruct (S3 s Hs) as [x [_ [Gx _]]]. exact Gx.
    + intros Ho Hbord s Hs. destruct (S3 s Hs) as [x [Ix [_ Gx]]].
      destruct (Gx Ho Hbord) as [x' [Ix' P]]. exists x', (offset BA bnd x). split; [exact Ix'|exact P].
Qed.
End Cover.
