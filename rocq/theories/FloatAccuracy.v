(** How far the distances computed in double precision are from the true ones. *)
From Coq Require Import Reals Lra Psatz.
From Flocq Require Import Core BinarySingleNaN Relative Plus_error Div_sqrt_error.
From Verif Require Import Base ModelArith ModelMetrics ModelFloat FloatFacts SpecDouble SpecMetric SpecMetrics
  SpecCubical VPProp FloatMetric MetricFacts MetricProp.
Open Scope R_scope.

(** Unit roundoff and half the smallest positive double. *)
Definition ur : R := bpow radix2 (-53).
Definition tiny : R := bpow radix2 (-1075).

Lemma ur_pos : 0 < ur.
Proof. apply bpow_gt_0. Qed.
Lemma tiny_pos : 0 < tiny.
Proof. apply bpow_gt_0. Qed.
Lemma ur_eq : / 2 * bpow radix2 (- (53) + 1) = ur.
Proof. unfold ur. change (- (53) + 1)%Z with (-53 + 1)%Z. rewrite bpow_plus. change (bpow radix2 1) with 2. lra. Qed.
Lemma tiny_eq : / 2 * bpow radix2 (-1074) = tiny.
Proof. unfold tiny. change (-1074)%Z with (-1075 + 1)%Z. rewrite bpow_plus. change (bpow radix2 1) with 2. lra. Qed.
Lemma ur_small : ur <= / IZR (2 ^ 53).
Proof. apply Rle_refl. Qed.

Notation fmt := (generic_format radix2 bexp).

Lemma fmt_value (a : b64) : fmt (value a).
Proof. apply generic_format_B2R. Qed.
Lemma fmt_brnd x : fmt (brnd x).
Proof. apply generic_format_round; [apply bexp_valid|apply valid_rnd_N]. Qed.
Lemma fmt_abs x : fmt x -> fmt (Rabs x).
Proof. apply generic_format_abs. Qed.
Lemma fmt_0 : fmt 0.
Proof. apply generic_format_0. Qed.

Lemma fmt_multiple x : fmt x -> exists n, x = F2R (Float radix2 n (-1074)).
Proof.
  intro H. apply FLT_format_generic in H; [|reflexivity]. destruct H as [f E _ He]. simpl in He.
  exists (Fnum f * 2 ^ (Fexp f - -1074))%Z. rewrite E. unfold F2R. cbn [Fnum Fexp].
  rewrite mult_IZR. change 2%Z with (radix_val radix2). rewrite IZR_Zpower by lia. rewrite Rmult_assoc, <- bpow_plus. f_equal. f_equal. lia.
Qed.

Lemma rel_multiple n : Rabs (brnd (F2R (Float radix2 n (-1074))) - F2R (Float radix2 n (-1074))) <= ur * Rabs (F2R (Float radix2 n (-1074))).
Proof. rewrite <- ur_eq. apply (relative_error_N_FLT_F2R_emin radix2 (-1074) 53). reflexivity. Qed.

Lemma plus_err x y : fmt x -> fmt y -> Rabs (brnd (x + y) - (x + y)) <= ur * Rabs (x + y).
Proof.
  intros Hx Hy. destruct (fmt_multiple x Hx) as [n ->], (fmt_multiple y Hy) as [k ->].
  assert (E : F2R (Float radix2 n (-1074)) + F2R (Float radix2 k (-1074)) = F2R (Float radix2 (n + k) (-1074))).
  { unfold F2R. cbn [Fnum Fexp]. rewrite plus_IZR. ring. }
  rewrite E. apply rel_multiple.
Qed.
Lemma minus_err x y : fmt x -> fmt y -> Rabs (brnd (x - y) - (x - y)) <= ur * Rabs (x - y).
Proof. intros Hx Hy. unfold Rminus. apply plus_err; [exact Hx|apply generic_format_opp, Hy]. Qed.
Lemma any_err x : Rabs (brnd x - x) <= ur * Rabs x + tiny.
Proof.
  destruct (error_N_FLT radix2 (-1074) 53 eq_refl (fun z => negb (Z.even z)) x) as [e [t [He [Ht [_ E]]]]].
  rewrite ur_eq in He. rewrite tiny_eq in Ht.
  assert (E' : brnd x = x * (1 + e) + t) by exact E.
  rewrite E'. replace (x * (1 + e) + t - x) with (e * x + t) by ring.
  eapply Rle_trans; [apply Rabs_triang|]. rewrite Rabs_mult. apply Rplus_le_compat; [|exact Ht].
  apply Rmult_le_compat_r; [apply Rabs_pos|exact He].
Qed.
Lemma sqrt_err x : fmt x -> 0 <= x -> Rabs (brnd (sqrt x) - sqrt x) <= ur * sqrt x.
Proof.
  intros Hx [Hp|<-].
  - rewrite <- (Rabs_right (sqrt x)) at 3 by (apply Rle_ge, sqrt_pos). rewrite <- ur_eq.
    apply (relative_error_N_FLT radix2 (-1074) 53); [reflexivity|].
    rewrite Rabs_right by (apply Rle_ge, sqrt_pos).
    apply Rle_trans with (sqrt (bpow radix2 (2 * -537))).
    + rewrite sqrt_bpow. apply bpow_le. lia.
    + apply sqrt_le_1_alt. destruct (fmt_multiple x Hx) as [n ->]. unfold F2R in *. cbn [Fnum Fexp] in *.
      apply Rle_trans with (1 * bpow radix2 (-1074)); [rewrite Rmult_1_l; apply Rle_refl|].
      apply Rmult_le_compat_r; [apply bpow_ge_0|]. apply IZR_le.
      assert (0 < n)%Z; [|lia]. apply lt_IZR. apply Rmult_lt_reg_r with (bpow radix2 (-1074)); [apply bpow_gt_0|].
      rewrite Rmult_0_l. exact Hp.
  - rewrite sqrt_0, brnd_0, Rminus_0_r, Rabs_R0. lra.
Qed.

(** *** Sums *)
Definition plain (l : list R) : R := fold_right Rplus 0 l.

Lemma plain_nonneg l : Forall (fun a => 0 <= a) l -> 0 <= plain l.
Proof. intro H. induction H; simpl; [apply Rle_refl|]. unfold plain in *. lra. Qed.

Lemma fold_bounds l : Forall (fun a => fmt a /\ 0 <= a) l -> forall s, fmt s -> 0 <= s ->
  (1 - ur) ^ length l * (s + plain l) <= fold_left (fun s a => brnd (s + a)) l s <= (1 + ur) ^ length l * (s + plain l) /\
  fmt (fold_left (fun s a => brnd (s + a)) l s).
Proof.
  assert (U := ur_pos). assert (U1 : ur < 1) by (apply (bpow_lt radix2 (-53) 0); lia).
  intro H. induction H as [|a l [Fa Ha] H IH]; intros s Fs Hs.
  - simpl. split; [unfold plain; simpl; lra|exact Fs].
  - simpl fold_left. destruct (IH (brnd (s + a)) (fmt_brnd _) ltac:(apply brnd_nonneg; lra)) as [[L R] F].
    split; [|exact F]. clear IH F. pose proof (plus_err s a Fs Fa) as P. rewrite (Rabs_right (s + a)) in P by lra.
    apply Rabs_le_inv in P.
    assert (Hl : 0 <= plain l) by (apply plain_nonneg; eapply Forall_impl; [|exact H]; intros x [_ Hx]; exact Hx).
    change (plain (a :: l)) with (a + plain l). simpl length. rewrite <- !tech_pow_Rmult.
    assert (P1 : 0 <= (1 - ur) ^ length l) by (apply pow_le; lra).
    assert (P2 : 0 <= (1 + ur) ^ length l) by (apply pow_le; lra).
    split.
    + eapply Rle_trans; [|exact L]. rewrite (Rmult_comm (1 - ur)), Rmult_assoc. apply Rmult_le_compat_l; [exact P1|]. nra.
    + eapply Rle_trans; [exact R|]. rewrite (Rmult_comm (1 + ur)), Rmult_assoc. apply Rmult_le_compat_l; [exact P2|]. nra.
Qed.

Lemma pow_up n : INR n * ur <= / 2 -> (1 + ur) ^ n <= 1 + 2 * INR n * ur.
Proof.
  assert (U := ur_pos). induction n as [|n IH]; intro H; [simpl; lra|].
  rewrite S_INR in *. assert (Hn := pos_INR n). rewrite <- tech_pow_Rmult.
  apply Rle_trans with ((1 + ur) * (1 + 2 * INR n * ur)); [apply Rmult_le_compat_l; [lra|]; apply IH; nra|]. nra.
Qed.
Lemma pow_down n : 1 - INR n * ur <= (1 - ur) ^ n.
Proof.
  assert (U := ur_pos). assert (U1 : ur < 1) by (apply (bpow_lt radix2 (-53) 0); lia).
  induction n as [|n IH]; [simpl; lra|]. rewrite S_INR. assert (Hn := pos_INR n). rewrite <- tech_pow_Rmult.
  assert (P1 : 0 <= (1 - ur) ^ n) by (apply pow_le; lra).
  apply Rle_trans with ((1 - ur) * (1 - INR n * ur)); [|apply Rmult_le_compat_l; lra].
  assert (0 <= INR n * ur) by nra. nra.
Qed.

Lemma rsum_err l : Forall (fun a => fmt a /\ 0 <= a) l -> INR (length l) * ur <= / 2 ->
  Rabs (rsum l - plain l) <= 2 * INR (length l) * ur * plain l /\ fmt (rsum l).
Proof.
  intros H Hn. destruct (fold_bounds l H 0 fmt_0 (Rle_refl 0)) as [[L R] F]. split; [|exact F].
  fold (rsum l) in L, R. rewrite Rplus_0_l in L, R.
  assert (Hl : 0 <= plain l) by (apply plain_nonneg; eapply Forall_impl; [|exact H]; intros x [_ Hx]; exact Hx).
  pose proof (pow_up (length l) Hn) as PU. pose proof (pow_down (length l)) as PD.
  assert (U := ur_pos). assert (0 <= INR (length l) * ur) by (pose proof (pos_INR (length l)); nra).
  apply Rabs_le. split.
  - assert ((1 - INR (length l) * ur) * plain l <= rsum l); [|nra].
    eapply Rle_trans; [|exact L]. apply Rmult_le_compat_r; auto.
  - assert (rsum l <= (1 + 2 * INR (length l) * ur) * plain l); [|nra].
    eapply Rle_trans; [exact R|]. apply Rmult_le_compat_r; auto.
Qed.

Lemma length_bound m : (Z.of_nat m <= 2 ^ 20)%Z -> INR m * ur <= bpow radix2 (-33).
Proof.
  intro H. rewrite INR_IZR_INZ. unfold ur. change (-33)%Z with (20 + -53)%Z. rewrite bpow_plus.
  apply Rmult_le_compat_r; [apply bpow_ge_0|]. change (bpow radix2 20) with (IZR (2 ^ 20)). apply IZR_le, H.
Qed.

Lemma plain_within (f g : list R) rho eta : 0 <= eta ->
  Forall2 (fun a b => Rabs (a - b) <= rho * b + eta) f g -> Rabs (plain f - plain g) <= rho * plain g + INR (length g) * eta.
Proof.
  intros He H. induction H as [|a b f g Hab H IH].
  - unfold plain. simpl. rewrite Rminus_0_r, Rabs_R0. lra.
  - change (plain (a :: f)) with (a + plain f). change (plain (b :: g)) with (b + plain g).
    simpl length. rewrite S_INR.
    replace (a + plain f - (b + plain g)) with (a - b + (plain f - plain g)) by ring.
    eapply Rle_trans; [apply Rabs_triang|]. lra.
Qed.

(** *** Differences *)
Definition tdiffs (x y : list b64) : list R := map2 Rminus (reals x) (reals y).

Lemma diffs_err x y : Forall2 (fun a b => fmt a /\ Rabs (a - b) <= ur * Rabs b) (diffs x y) (tdiffs x y).
Proof.
  revert y. induction x as [|a x IH]; intros [|b y]; simpl; try constructor.
  - split; [apply fmt_brnd|apply minus_err; apply fmt_value].
  - apply IH.
Qed.

Lemma Rabs_diff a b : Rabs (Rabs a - Rabs b) <= Rabs (a - b).
Proof. apply Rabs_triang_inv2. Qed.

Lemma F2_map {A B A' B'} (P : A -> B -> Prop) (Q : A' -> B' -> Prop) f g l m :
  (forall a b, P a b -> Q (f a) (g b)) -> Forall2 P l m -> Forall2 Q (map f l) (map g m).
Proof. intros H HF. induction HF; simpl; constructor; auto. Qed.
Lemma F2_left {A B} (P : A -> B -> Prop) (Q : A -> Prop) l m : (forall a b, P a b -> Q a) -> Forall2 P l m -> Forall Q l.
Proof. intros H HF. induction HF; constructor; eauto. Qed.
Lemma F2_len {A B} (P : A -> B -> Prop) l m : Forall2 P l m -> length l = length m.
Proof. intros HF. induction HF; simpl; congruence. Qed.
Lemma tdiffs_length x y : length x = length y -> length (tdiffs x y) = length x.
Proof. intro H. unfold tdiffs, reals. rewrite map2_length; rewrite !map_length; auto. Qed.

Lemma plain_total h x y : plain (map h (map2 Rminus x y)) = total (fun a b => h (a - b)) x y.
Proof.
  revert y. induction x as [|a x IH]; intros [|b y]; simpl; auto. unfold plain in *. simpl. rewrite IH. reflexivity.
Qed.

Lemma two_u : 2 * ur = bpow radix2 (-52).
Proof. unfold ur. change (-52)%Z with (-53 + 1)%Z. rewrite bpow_plus. change (bpow radix2 1) with 2. ring. Qed.

Lemma man_err x y : length x = length y -> (Z.of_nat (length x) <= 2 ^ 20)%Z ->
  Rabs (man_r x y - manhattan RA sqrt (reals x) (reals y)) <=
    (INR (length x) + 1) * bpow radix2 (-52) * manhattan RA sqrt (reals x) (reals y).
Proof.
  intros L Hm. rewrite manhattan_total, <- plain_total. fold (tdiffs x y).
  assert (D := diffs_err x y). assert (U := ur_pos).
  assert (Ln : length (map Rabs (diffs x y)) = length x).
  { rewrite map_length, (F2_len _ _ _ D). apply tdiffs_length, L. }
  pose proof (length_bound _ Hm) as B. assert (S33 : bpow radix2 (-33) <= / 2) by (apply (bpow_le radix2 (-33) (-1)); lia).
  destruct (rsum_err (map Rabs (diffs x y))) as [E _].
  { eapply F2_left; [|eapply (F2_map _ (fun a b => fmt a /\ 0 <= a) Rabs Rabs); [|exact D]].
    - intros a b H. exact H.
    - intros a b [F _]. split; [apply fmt_abs, F|apply Rabs_pos]. }
  { rewrite Ln. lra. }
  rewrite Ln in E. fold (man_r x y) in E.
  assert (W : Rabs (plain (map Rabs (diffs x y)) - plain (map Rabs (tdiffs x y))) <= ur * plain (map Rabs (tdiffs x y))).
  { rewrite <- (Rplus_0_r (ur * _)). rewrite <- (Rmult_0_r (INR (length (map Rabs (tdiffs x y))))).
    apply plain_within; [lra|]. eapply F2_map; [|exact D]. intros a b [_ H]. cbv beta.
    eapply Rle_trans; [apply Rabs_diff|]. lra. }
  set (P := plain (map Rabs (diffs x y))) in *. set (S := plain (map Rabs (tdiffs x y))) in *.
  assert (HS : 0 <= S). { apply plain_nonneg. clear. induction (tdiffs x y); simpl; constructor; auto. apply Rabs_pos. }
  apply Rabs_le_inv in W. rewrite <- two_u. set (n := INR (length x)) in *.
  assert (Hn : 0 <= n) by apply pos_INR. assert (Hnu : 0 <= n * ur) by nra.
  replace (man_r x y - S) with ((man_r x y - P) + (P - S)) by ring.
  eapply Rle_trans; [apply Rabs_triang|]. apply Rle_trans with (2 * n * ur * ((1 + ur) * S) + ur * S).
  - apply Rplus_le_compat; [|apply Rabs_le; lra]. eapply Rle_trans; [exact E|]. apply Rmult_le_compat_l; [nra|]. lra.
  - assert (2 * n * ur * ur <= ur) by nra. assert (2 * n * ur * ur * S <= ur * S) by (apply Rmult_le_compat_r; auto). nra.
Qed.

Lemma max_err f g rho : 0 <= rho -> Forall2 (fun a b => 0 <= b /\ Rabs (a - b) <= rho * b) f g ->
  0 <= fold_right Rmax 0 g /\ Rabs (fold_right Rmax 0 f - fold_right Rmax 0 g) <= rho * fold_right Rmax 0 g.
Proof.
  intros Hr H. induction H as [|a b f g [Hb Hab] H [IH0 IH]]; simpl; [rewrite Rminus_0_r, Rabs_R0; lra|].
  apply Rabs_le_inv in Hab, IH. set (F := fold_right Rmax 0 f) in *. set (G := fold_right Rmax 0 g) in *.
  split; [eapply Rle_trans; [exact IH0|apply Rmax_r]|]. apply Rabs_le.
  pose proof (Rmax_l a F). pose proof (Rmax_r a F). pose proof (Rmax_l b G). pose proof (Rmax_r b G).
  split.
  - destruct (Rle_dec b G).
    + rewrite (Rmax_right b G) in * by assumption. lra.
    + rewrite (Rmax_left b G) in * by lra. lra.
  - destruct (Rle_dec a F).
    + rewrite (Rmax_right a F) in * by assumption. assert (rho * G <= rho * Rmax b G) by (apply Rmult_le_compat_l; auto). lra.
    + rewrite (Rmax_left a F) in * by lra. assert (rho * b <= rho * Rmax b G) by (apply Rmult_le_compat_l; auto). lra.
Qed.

Lemma max_n_R a b : max_n RA a b = Rmax a b.
Proof.
  unfold max_n. change (le_b RA) with Rleb. unfold Rleb. destruct (Rle_dec a b) as [H|H]; symmetry.
  - apply Rmax_right, H.
  - apply Rmax_left. lra.
Qed.
Lemma cheb_real x y : chebyshev_norm RA sqrt x y = fold_right Rmax 0 (map Rabs (map2 Rminus x y)).
Proof.
  unfold chebyshev_norm, norm. change (zero RA) with 0. change (sub RA) with Rminus. revert y.
  induction x as [|a x IH]; intros [|b y]; try reflexivity.
  cbn [map2 map fold_right]. etransitivity; [apply max_n_R|].
  apply (f_equal2 Rmax (abs_n_R (a - b)) (IH y)).
Qed.

Lemma che_err x y : Rabs (che_r x y - chebyshev_norm RA sqrt (reals x) (reals y)) <=
  ur * chebyshev_norm RA sqrt (reals x) (reals y).
Proof.
  rewrite cheb_real. fold (tdiffs x y). unfold che_r. apply max_err; [pose proof ur_pos; lra|].
  eapply F2_map; [|apply diffs_err]. intros a b [_ H]. split; [apply Rabs_pos|].
  eapply Rle_trans; [apply Rabs_diff|exact H].
Qed.

(** *** Square roots *)
Lemma sqrt_within v D rho E : 0 <= v -> 0 <= D -> 0 <= rho < 1 -> 0 <= E -> Rabs (v - D * D) <= rho * (D * D) + E ->
  Rabs (sqrt v - D) <= rho * D + sqrt E.
Proof.
  intros Hv HD Hr HE H. apply Rabs_le_inv in H. assert (Q : 0 <= sqrt E) by apply sqrt_pos.
  assert (QE : sqrt E * sqrt E = E) by (apply sqrt_def, HE).
  assert (S : 0 <= sqrt v) by apply sqrt_pos. assert (SV : sqrt v * sqrt v = v) by (apply sqrt_def, Hv).
  apply Rabs_le. split.
  - assert (D * (1 - rho) <= sqrt v + sqrt E); [|lra]. apply Rsqr_incr_0_var; [|lra]. unfold Rsqr.
    assert (0 <= D * D) by nra. 
    assert (D * (1 - rho) * (D * (1 - rho)) <= D * D * (1 - rho)).
    { replace (D * (1 - rho) * (D * (1 - rho))) with (D * D * (1 - rho) * (1 - rho)) by ring.
      rewrite <- (Rmult_1_r (D * D * (1 - rho))) at 2. apply Rmult_le_compat_l; [apply Rmult_le_pos|]; lra. }
    assert (0 <= sqrt v * sqrt E) by (apply Rmult_le_pos; lra). nra.
  - assert (sqrt v <= D * (1 + rho) + sqrt E); [|lra]. apply Rsqr_incr_0_var; [|nra]. unfold Rsqr.
    assert (0 <= D * D) by nra. 
    assert (D * D * (1 + rho) <= D * (1 + rho) * (D * (1 + rho))).
    { replace (D * (1 + rho) * (D * (1 + rho))) with (D * D * (1 + rho) * (1 + rho)) by ring.
      rewrite <- (Rmult_1_r (D * D * (1 + rho))) at 1. apply Rmult_le_compat_l; [apply Rmult_le_pos|]; lra. }
    assert (0 <= D * (1 + rho) * sqrt E) by (apply Rmult_le_pos; nra). nra.
Qed.

Lemma sq_err a b : Rabs (a - b) <= ur * Rabs b -> Rabs (brnd (a * a) - b * b) <= 4 * ur * (b * b) + tiny.
Proof.
  intro H. assert (U := ur_pos). assert (US : ur <= / 16) by (apply (bpow_le radix2 (-53) (-4)); lia).
  pose proof (any_err (a * a)) as A. rewrite (Rabs_right (a * a)) in A by (apply Rle_ge, Rle_0_sqr).
  assert (Hb : 0 <= b * b) by apply Rle_0_sqr.
  assert (B : Rabs (a * a - b * b) <= (2 * ur + ur * ur) * (b * b)).
  { replace (a * a - b * b) with ((a - b) * (a - b + 2 * b)) by ring. rewrite Rabs_mult.
    apply Rle_trans with (ur * Rabs b * (ur * Rabs b + 2 * Rabs b)).
    - apply Rmult_le_compat; auto using Rabs_pos. eapply Rle_trans; [apply Rabs_triang|].
      rewrite (Rabs_mult 2), (Rabs_right 2) by lra. lra.
    - assert (E : Rabs b * Rabs b = b * b) by (rewrite <- Rabs_mult; apply Rabs_right; lra). nra. }
  replace (brnd (a * a) - b * b) with ((brnd (a * a) - a * a) + (a * a - b * b)) by ring.
  eapply Rle_trans; [apply Rabs_triang|]. apply Rabs_le_inv in B.
  assert (a * a <= (1 + 2 * ur + ur * ur) * (b * b)) by nra.
  assert (Rabs (a * a - b * b) <= (2 * ur + ur * ur) * (b * b)) by (apply Rabs_le; lra).
  assert (ur * (a * a) <= ur * ((1 + 2 * ur + ur * ur) * (b * b))) by (apply Rmult_le_compat_l; lra).
  assert (ur * (1 + 2 * ur + ur * ur) + 2 * ur + ur * ur <= 4 * ur) by nra.
  assert ((ur * (1 + 2 * ur + ur * ur) + 2 * ur + ur * ur) * (b * b) <= 4 * ur * (b * b)) by (apply Rmult_le_compat_r; auto).
  lra.
Qed.

Lemma root_err v D k : fmt v -> 0 <= v -> 0 <= D -> INR k * ur <= / 64 ->
  Rabs (v - D * D) <= (2 * INR k + 8) * ur * (D * D) + 2 * INR k * tiny ->
  Rabs (brnd (sqrt v) - D) <= (INR k + 5) * bpow radix2 (-52) * D + INR k * bpow radix2 (-536).
Proof.
  intros Fr RN D0 B R1. assert (U := ur_pos). assert (TY := tiny_pos).
  assert (US : ur <= / 1024) by (apply (bpow_le radix2 (-53) (-10)); lia).
  set (n := INR k) in *. assert (Hn : 0 <= n) by apply pos_INR.
  assert (Hnu : 0 <= n * ur <= / 64) by (split; [nra|lra]). assert (HE : 0 <= n * tiny) by nra.
  assert (R2 := sqrt_within v D ((2 * n + 8) * ur) (2 * n * tiny) RN D0 ltac:(split; nra) ltac:(lra) R1).
  pose proof (sqrt_err v Fr RN) as R3.
  set (E0 := sqrt (2 * n * tiny)) in *. assert (HE0 : 0 <= E0) by apply sqrt_pos.
  assert (E0b : E0 <= n * bpow radix2 (-537)).
  { unfold E0. replace (2 * n * tiny) with (n * bpow radix2 (-1074)) by (rewrite <- tiny_eq; field).
    apply Rsqr_incr_0_var; [|apply Rmult_le_pos; [exact Hn|apply bpow_ge_0]].
    rewrite Rsqr_sqrt by (apply Rmult_le_pos; [exact Hn|apply bpow_ge_0]). unfold Rsqr.
    replace (n * bpow radix2 (-537) * (n * bpow radix2 (-537))) with (n * n * (bpow radix2 (-537) * bpow radix2 (-537))) by ring.
    rewrite <- bpow_plus. apply Rmult_le_compat_r; [apply bpow_ge_0|]. unfold n. destruct k as [|k]; [simpl; lra|].
    rewrite S_INR. pose proof (pos_INR k). nra. }
  assert (T : bpow radix2 (-536) = 2 * bpow radix2 (-537)).
  { change (-536)%Z with (1 + -537)%Z. rewrite bpow_plus. reflexivity. }
  rewrite T, <- two_u. set (sv := sqrt v) in *.
  replace (brnd sv - D) with ((brnd sv - sv) + (sv - D)) by ring. eapply Rle_trans; [apply Rabs_triang|].
  assert (SV : sv <= D + ((2 * n + 8) * ur * D + E0)) by (apply Rabs_le_inv in R2; lra).
  apply Rle_trans with (ur * (D + ((2 * n + 8) * ur * D + E0)) + ((2 * n + 8) * ur * D + E0)).
  - apply Rplus_le_compat; [|exact R2]. eapply Rle_trans; [exact R3|]. apply Rmult_le_compat_l; lra.
  - assert (HuD : 0 <= ur * D) by nra.
    assert (ur * ((2 * n + 8) * ur * D) <= ur * D).
    { replace (ur * ((2 * n + 8) * ur * D)) with ((2 * (n * ur) + 8 * ur) * (ur * D)) by ring. nra. }
    assert (ur * E0 <= E0) by nra. nra.
Qed.

Lemma euc_err x y : length x = length y -> (Z.of_nat (length x) <= 2 ^ 20)%Z ->
  Rabs (euc_r x y - euclidean RA sqrt (reals x) (reals y)) <=
    (INR (length x) + 5) * bpow radix2 (-52) * euclidean RA sqrt (reals x) (reals y) + INR (length x) * bpow radix2 (-536).
Proof.
  intros L Hm. destruct (euclidean_doc (reals x) (reals y)) as [D0 DD].
  set (D := euclidean RA sqrt (reals x) (reals y)) in *. rewrite <- (plain_total (fun a => a * a)) in DD. fold (tdiffs x y) in DD.
  assert (F := diffs_err x y). assert (U := ur_pos). assert (TY := tiny_pos).
  set (sq := map (fun a => brnd (a * a)) (diffs x y)).
  assert (Ln : length sq = length x). { unfold sq. rewrite map_length, (F2_len _ _ _ F). apply tdiffs_length, L. }
  assert (Lt : length (map (fun a => a * a) (tdiffs x y)) = length x) by (rewrite map_length; apply tdiffs_length, L).
  pose proof (length_bound _ Hm) as B. assert (S33 : bpow radix2 (-33) <= / 64) by (apply (bpow_le radix2 (-33) (-6)); lia).
  assert (US : ur <= / 1024) by (apply (bpow_le radix2 (-53) (-10)); lia).
  assert (PS : Forall (fun a => fmt a /\ 0 <= a) sq).
  { unfold sq. apply Forall_forall. intros z Hz. apply in_map_iff in Hz. destruct Hz as [a [<- _]].
    split; [apply fmt_brnd|apply brnd_nonneg, Rle_0_sqr]. }
  destruct (rsum_err sq PS) as [E Fr]; [rewrite Ln; lra|]. rewrite Ln in E.
  assert (W : Rabs (plain sq - D * D) <= 4 * ur * (D * D) + INR (length x) * tiny).
  { rewrite DD. rewrite <- Lt. apply plain_within; [lra|]. eapply F2_map; [|exact F].
    intros a b [_ H]. apply sq_err, H. }
  set (n := INR (length x)) in *. assert (Hn : 0 <= n) by apply pos_INR.
  assert (Hnu : 0 <= n * ur <= / 64) by (split; [nra|lra]).
  set (P := plain sq) in *. set (S := D * D) in *. assert (HS : 0 <= S) by (unfold S; nra).
  assert (HE : 0 <= n * tiny) by nra.
  assert (R1 : Rabs (rsum sq - S) <= (2 * n + 8) * ur * S + 2 * n * tiny).
  { replace (rsum sq - S) with ((rsum sq - P) + (P - S)) by ring. eapply Rle_trans; [apply Rabs_triang|].
    apply Rabs_le_inv in W.
    apply Rle_trans with (2 * n * ur * (S + (4 * ur * S + n * tiny)) + (4 * ur * S + n * tiny)).
    - apply Rplus_le_compat; [|apply Rabs_le; lra]. eapply Rle_trans; [exact E|]. apply Rmult_le_compat_l; lra.
    - assert (HuS : 0 <= ur * S) by nra.
      assert (2 * n * ur * (4 * ur * S) <= ur * S) by (replace (2 * n * ur * (4 * ur * S)) with ((8 * (n * ur)) * (ur * S)) by ring; nra).
      assert (2 * n * ur * (n * tiny) <= n * tiny) by nra. nra. }
  assert (RN : 0 <= rsum sq).
  { destruct (fold_bounds sq PS 0 fmt_0 (Rle_refl 0)) as [[Lo _] _]. eapply Rle_trans; [|exact Lo].
    rewrite Rplus_0_l. apply Rmult_le_pos; [apply pow_le; lra|]. apply plain_nonneg.
    eapply Forall_impl; [|exact PS]. intros z [_ Hz]. exact Hz. }
  apply (root_err (rsum sq) D (length x)); auto. fold n. lra.
Qed.
