(** One axis of the grid of a cubical cover in double precision. *)
From Coq Require Import Reals Lra Psatz.
From Flocq Require Import Core BinarySingleNaN Relative.
From Verif Require Import Base ModelArith ModelCover ModelFloat FloatFacts SpecDouble FloatMetric FloatAccuracy.
Open Scope R_scope.

Lemma norm_err x : bpow radix2 (-1022) <= Rabs x -> Rabs (brnd x - x) <= ur * Rabs x.
Proof. intro H. rewrite <- ur_eq. apply (relative_error_N_FLT radix2 (-1074) 53); [reflexivity|exact H]. Qed.

Lemma b_make_val a e : (Z.abs a < 2 ^ 53)%Z -> (-1074 <= e <= 900)%Z -> finite (b_make a e) /\ value (b_make a e) = IZR a * bpow radix2 e.
Proof.
  intros H He. assert (E : brnd (F2R (Float radix2 a e)) = IZR a * bpow radix2 e).
  { unfold F2R. cbn [Fnum Fexp]. apply brnd_int_pow; lia. }
  pose proof (binary_normalize_correct 53 1024 prec53 emax1024 mode_NE a e false) as C.
  cbv zeta in C. rewrite Rlt_bool_true in C.
  - destruct C as [C1 [C2 _]]. split; [exact C2|]. etransitivity; [exact C1|exact E].
  - eapply Rle_lt_trans; [apply Req_le, f_equal; exact E|].
    rewrite Rabs_mult, <- abs_IZR, (Rabs_right (bpow _ _)) by (apply Rle_ge, bpow_ge_0).
    apply Rle_lt_trans with (bpow radix2 53 * bpow radix2 e).
    + apply Rmult_le_compat_r; [apply bpow_ge_0|]. change (bpow radix2 53) with (IZR (2 ^ 53)). apply IZR_le. lia.
    + rewrite <- bpow_plus. apply bpow_lt. lia.
Qed.

Lemma b_ofz_val z : (Z.abs z < 2 ^ 53)%Z -> finite (b_ofz z) /\ value (b_ofz z) = IZR z.
Proof.
  intro H. assert (E : brnd (F2R (Float radix2 z 0)) = IZR z).
  { unfold F2R. cbn [Fnum Fexp]. rewrite brnd_int_pow by lia. simpl. ring. }
  pose proof (binary_normalize_correct 53 1024 prec53 emax1024 mode_NE z 0 false) as C.
  cbv zeta in C. rewrite Rlt_bool_true in C.
  - destruct C as [C1 [C2 _]]. split; [exact C2|]. etransitivity; [exact C1|exact E].
  - eapply Rle_lt_trans; [apply Req_le, f_equal; exact E|].
    rewrite <- abs_IZR. apply Rlt_trans with (IZR (2 ^ 53)); [apply IZR_lt, H|].
    change (IZR (2 ^ 53)) with (bpow radix2 53). apply bpow_lt. lia.
Qed.

Lemma half_val : finite (half BA) /\ value (half BA) = / 2.
Proof.
  destruct (b_ofz_val 1 eq_refl) as [F1 V1], (b_ofz_val 2 eq_refl) as [F2 V2].
  assert (E : brnd (rv (b_ofz 1) / rv (b_ofz 2)) = / 2).
  { fold (value (b_ofz 1)) (value (b_ofz 2)). rewrite V1, V2. unfold Rdiv. rewrite Rmult_1_l.
    change (/ 2) with (bpow radix2 (-1)). apply brnd_pow. lia. }
  destruct (b_div_val (b_ofz 1) (b_ofz 2)) as [V F].
  - exact F1.
  - fold (value (b_ofz 2)). rewrite V2. apply Rgt_not_eq. lra.
  - rewrite E. rewrite Rabs_right by lra. apply (bpow_lt radix2 (-1) 1024). lia.
  - split; [exact F|]. etransitivity; [exact V|exact E].
Qed.

Lemma b_floor_bounds x : finite x -> IZR (b_floor x) <= value x < IZR (b_floor x) + 1.
Proof.
  intro F. destruct x as [s|s| |s mm e Hb]; try discriminate; [simpl; lra|].
  unfold value, b_floor, B2R. unfold F2R. cbn [Fnum Fexp]. set (z := if s then Z.neg mm else Z.pos mm).
  replace (cond_Zopp s (Z.pos mm)) with z by (destruct s; reflexivity).
  destruct (Z.leb_spec 0 e) as [H|H].
  - rewrite mult_IZR. change 2%Z with (radix_val radix2) at 1 2. rewrite !IZR_Zpower by exact H. lra.
  - assert (P : (0 < 2 ^ (- e))%Z) by (apply Z.pow_pos_nonneg; lia).
    assert (Q : 0 < IZR (2 ^ (- e))) by (apply IZR_lt, P).
    assert (E : IZR z * bpow radix2 e = IZR z / IZR (2 ^ (- e))).
    { change 2%Z with (radix_val radix2). rewrite IZR_Zpower by lia. rewrite bpow_opp.
      unfold Rdiv. rewrite Rinv_inv. reflexivity. }
    rewrite E. pose proof (Z_div_mod_eq_full z (2 ^ (- e))) as D. pose proof (Z.mod_pos_bound z (2 ^ (- e)) P) as B.
    set (k := (z / 2 ^ (- e))%Z) in *. set (w := (2 ^ (- e))%Z) in *.
    assert (D1 : IZR w * IZR k <= IZR z) by (rewrite <- mult_IZR; apply IZR_le; lia).
    assert (D2 : IZR z < IZR w * (IZR k + 1)) by (rewrite <- plus_IZR, <- mult_IZR; apply IZR_lt; lia).
    split.
    + apply Rmult_le_reg_r with (IZR w); [exact Q|]. unfold Rdiv. rewrite Rmult_assoc, Rinv_l by lra. lra.
    + apply Rmult_lt_reg_r with (IZR w); [exact Q|]. unfold Rdiv. rewrite Rmult_assoc, Rinv_l by lra. lra.
Qed.

Lemma ur_tiny k : (k <= -60)%Z -> bpow radix2 k <= ur * / 64.
Proof.
  intro H. unfold ur. change (/ 64) with (bpow radix2 (-6)). rewrite <- bpow_plus. apply bpow_le. lia.
Qed.

(** *** Positions on the grid *)
Section Axis.
Variables (n : Z) (mn dl : b64).
Hypothesis Hn : (1 <= n <= 2 ^ 50)%Z.
Hypothesis Hmn : small 500 mn.
Hypothesis Fdl : finite dl.
Hypothesis Hdl : bpow radix2 (-52) <= value dl <= bpow radix2 501.

Notation N := (IZR n).
Notation Dl := (value dl).
Notation Mn := (value mn).

Lemma N_ge : 1 <= N.
Proof. apply IZR_le. lia. Qed.
Lemma N_le : N <= bpow radix2 50.
Proof. change (bpow radix2 50) with (IZR (2 ^ 50)). apply IZR_le. lia. Qed.
Lemma n_val : finite (b_ofz n) /\ value (b_ofz n) = N.
Proof. apply b_ofz_val. lia. Qed.
Lemma Dl_pos : 0 < Dl.
Proof. pose proof (bpow_gt_0 radix2 (-52)). lra. Qed.
Lemma Dl_inv : / Dl <= bpow radix2 52.
Proof.
  rewrite <- (Rinv_inv (bpow radix2 52)), <- bpow_opp. apply Rinv_le; [apply bpow_gt_0|]. apply Hdl.
Qed.
Lemma ur_lt : ur <= / 1024.
Proof. apply (bpow_le radix2 (-53) (-10)). lia. Qed.

Definition gam (x : b64) : b64 := b_div (b_mult (b_ofz n) (b_minus x mn)) dl.

Lemma gam_val x : small 503 x -> let a := N * (value x - Mn) / Dl in
  finite (gam x) /\ Rabs (value (gam x) - a) <= 4 * ur * Rabs a + ur /\ (0 <= value x - Mn -> 0 <= value (gam x)).
Proof.
  intros Hx. cbv zeta. pose proof N_ge as N1. pose proof N_le as N2. pose proof Dl_pos as P. pose proof Dl_inv as PI.
  pose proof ur_pos as U. pose proof ur_lt as U1. pose proof tiny_pos as TY.
  assert (Hmn' : small 503 mn).
  { destruct Hmn as [F B]. split; [exact F|]. eapply Rle_trans; [exact B|]. apply bpow_le. lia. }
  destruct (small_minus 503 x mn ltac:(lia) Hx Hmn') as [[F1 B1] V1]. set (t := value x - Mn) in *.
  destruct n_val as [Fn Vn].
  assert (B2 : Rabs (value (b_ofz n) * value (b_minus x mn)) <= bpow radix2 (50 + 504)).
  { rewrite Rabs_mult, Vn, bpow_plus. apply Rmult_le_compat; auto using Rabs_pos. rewrite Rabs_right by lra. exact N2. }
  pose proof B2 as B2'. apply brnd_abs_pow in B2'; [|lia].
  destruct (b_mult_val (b_ofz n) (b_minus x mn) Fn F1) as [V2 F2].
  { eapply Rle_lt_trans; [exact B2'|]. apply bpow_lt. lia. }
  fold (value (b_ofz n)) (value (b_minus x mn)) in V2. rewrite <- V2 in B2'.
  fold (value (b_mult (b_ofz n) (b_minus x mn))) in V2, B2'. set (m2 := b_mult (b_ofz n) (b_minus x mn)) in *.
  assert (B3 : Rabs (value m2 / Dl) <= bpow radix2 (50 + 504 + 52)).
  { unfold Rdiv. rewrite Rabs_mult, bpow_plus. apply Rmult_le_compat; auto using Rabs_pos.
    rewrite Rabs_right; [exact PI|]. apply Rle_ge, Rlt_le, Rinv_0_lt_compat, P. }
  pose proof B3 as B3'. apply brnd_abs_pow in B3'; [|lia].
  destruct (b_div_val m2 dl F2) as [V3 F3].
  { apply Rgt_not_eq, P. }
  { eapply Rle_lt_trans; [exact B3'|]. apply bpow_lt. lia. }
  fold (value m2) (value dl) in V3. change (b_div m2 dl) with (gam x) in V3, F3. fold (value (gam x)) in V3.
  split; [exact F3|]. split.
  - (* errors *)
    set (a := N * t / Dl). set (t1 := value (b_minus x mn)) in *. set (t2 := value m2) in *.
    assert (E1 : Rabs (t1 - t) <= ur * Rabs t) by (rewrite V1; apply minus_err; apply fmt_value).
    assert (E2 : Rabs (t2 - N * t1) <= ur * Rabs (N * t1) + tiny) by (rewrite V2, Vn; apply any_err).
    assert (E3 : Rabs (value (gam x) - t2 / Dl) <= ur * Rabs (t2 / Dl) + tiny) by (rewrite V3; apply any_err).
    assert (E1' : Rabs (N * t1 - N * t) <= ur * (N * Rabs t)).
    { replace (N * t1 - N * t) with (N * (t1 - t)) by ring. rewrite Rabs_mult, (Rabs_right N) by lra.
      rewrite <- Rmult_assoc, (Rmult_comm ur), Rmult_assoc. apply Rmult_le_compat_l; lra. }
    assert (A1 : Rabs (N * t1) <= (1 + ur) * (N * Rabs t)).
    { replace (N * t1) with ((N * t1 - N * t) + N * t) by ring. eapply Rle_trans; [apply Rabs_triang|].
      rewrite (Rabs_mult N t), (Rabs_right N) by lra. lra. }
    assert (E2' : Rabs (t2 - N * t) <= (2 * ur + ur * ur) * (N * Rabs t) + tiny).
    { replace (t2 - N * t) with ((t2 - N * t1) + (N * t1 - N * t)) by ring. eapply Rle_trans; [apply Rabs_triang|].
      assert (ur * Rabs (N * t1) <= ur * ((1 + ur) * (N * Rabs t))) by (apply Rmult_le_compat_l; lra). lra. }
    assert (Aa : Rabs a = N * Rabs t / Dl).
    { unfold a, Rdiv. rewrite !Rabs_mult, (Rabs_right N), (Rabs_right (/ Dl)); try lra.
      apply Rle_ge, Rlt_le, Rinv_0_lt_compat, P. }
    assert (IP : 0 < / Dl) by (apply Rinv_0_lt_compat, P).
    assert (TD : tiny * / Dl <= bpow radix2 (-1023)).
    { unfold tiny. change (-1023)%Z with (-1075 + 52)%Z. rewrite bpow_plus. apply Rmult_le_compat_l; [apply bpow_ge_0|exact PI]. }
    set (z := bpow radix2 (-1023)) in *. assert (Z0 : 0 < z) by apply bpow_gt_0.
    assert (Zs : z <= ur * / 64) by (apply ur_tiny; lia). assert (Ts : tiny <= ur * / 64) by (apply ur_tiny; lia).
    assert (E2d : Rabs (t2 / Dl - a) <= (2 * ur + ur * ur) * Rabs a + z).
    { replace (t2 / Dl - a) with ((t2 - N * t) * / Dl) by (unfold a; field; lra).
      rewrite Rabs_mult, (Rabs_right (/ Dl)) by lra.
      eapply Rle_trans; [apply Rmult_le_compat_r; [lra|exact E2']|]. rewrite Rmult_plus_distr_r, Rmult_assoc.
      change (N * Rabs t * / Dl) with (N * Rabs t / Dl). rewrite <- Aa. lra. }
    assert (A2 : Rabs (t2 / Dl) <= (1 + 2 * ur + ur * ur) * Rabs a + z).
    { replace (t2 / Dl) with ((t2 / Dl - a) + a) by ring. eapply Rle_trans; [apply Rabs_triang|]. lra. }
    replace (value (gam x) - a) with ((value (gam x) - t2 / Dl) + (t2 / Dl - a)) by ring.
    eapply Rle_trans; [apply Rabs_triang|]. pose proof (Rabs_pos a) as A0.
    assert (ur * Rabs (t2 / Dl) <= ur * ((1 + 2 * ur + ur * ur) * Rabs a + z)) by (apply Rmult_le_compat_l; lra).
    assert (ur * z <= z) by nra.
    assert (K : 3 * ur + 3 * (ur * ur) + ur * (ur * ur) <= 4 * ur) by nra.
    assert ((3 * ur + 3 * (ur * ur) + ur * (ur * ur)) * Rabs a <= 4 * ur * Rabs a) by (apply Rmult_le_compat_r; auto).
    nra.
  - intro T0. rewrite V3. apply brnd_nonneg. apply Rmult_le_pos; [|apply Rlt_le, Rinv_0_lt_compat, P].
    rewrite V2. apply brnd_nonneg. rewrite Vn. apply Rmult_le_pos; [lra|]. rewrite V1. apply brnd_nonneg, T0.
Qed.

(** A value of the column: its cell. *)
Definition cellno (x : b64) : Z := Z.min (n - 1) (b_floor (gam x)).

Lemma data_pos x : small 500 x -> 0 <= value x - Mn -> value x - Mn <= Dl * (1 + 2 * ur) ->
  finite (gam x) /\ 0 <= value (gam x) <= N + 8 * ur * N /\
  (0 <= cellno x <= n - 1)%Z /\ Rabs (value (gam x) - (IZR (cellno x) + / 2)) <= / 2 + 8 * ur * N.
Proof.
  intros Hx T0 T1. assert (Hx' : small 503 x).
  { destruct Hx as [F B]. split; [exact F|]. eapply Rle_trans; [exact B|]. apply bpow_le. lia. }
  destruct (gam_val x Hx') as [F [E P]]. specialize (P T0). pose proof N_ge as N1. pose proof Dl_pos as D0.
  pose proof ur_pos as U. pose proof ur_lt as U1.
  set (a := N * (value x - Mn) / Dl) in *.
  assert (A : 0 <= a <= N * (1 + 2 * ur)).
  { unfold a. split.
    - apply Rmult_le_pos; [nra|]. apply Rlt_le, Rinv_0_lt_compat, D0.
    - apply Rmult_le_reg_r with Dl; [exact D0|]. unfold Rdiv. rewrite Rmult_assoc, Rinv_l by lra. nra. }
  assert (G : value (gam x) <= N + 8 * ur * N).
  { apply Rabs_le_inv in E. rewrite Rabs_right in E by lra.
    assert (4 * ur * a <= 4 * ur * (N * (1 + 2 * ur))) by (apply Rmult_le_compat_l; lra).
    assert (ur <= ur * N) by nra. assert (ur * ur * N <= / 1024 * (ur * N)) by nra. nra. }
  split; [exact F|]. split; [lra|]. destruct (b_floor_bounds _ F) as [L R].
  assert (Fl : (0 <= b_floor (gam x))%Z).
  { assert (-1 < b_floor (gam x))%Z; [|lia]. apply lt_IZR. lra. }
  unfold cellno. split; [lia|]. assert (0 <= ur * N) by nra.
  destruct (Z.min_spec (n - 1) (b_floor (gam x))) as [[Hm ->]|[Hm ->]].
  - rewrite minus_IZR. assert (Hm' : IZR n <= IZR (b_floor (gam x))) by (apply IZR_le; lia). apply Rabs_le. lra.
  - apply Rabs_le. lra.
Qed.

(** The middle of a cell, in the units of the data. *)
Definition mid (o : Z) : b64 := b_plus mn (b_div (b_mult dl (b_plus (half BA) (b_ofz o))) (b_ofz n)).

Lemma mid_val o : (0 <= o <= n - 1)%Z ->
  small 503 (mid o) /\
  Rabs (value (mid o) - (Mn + Dl * (IZR o + / 2) / N)) <= ur * Rabs Mn + 5 * ur * Dl.
Proof.
  intros Ho. pose proof N_ge as N1. pose proof N_le as N2. pose proof Dl_pos as D0.
  pose proof ur_pos as U. pose proof ur_lt as U1. destruct Hdl as [D1 D2]. destruct n_val as [Fn Vn].
  destruct half_val as [Fh Vh]. destruct (b_ofz_val o ltac:(lia)) as [Fo Vo].
  set (c := IZR o + / 2). assert (O0 : 0 <= IZR o) by (apply IZR_le; lia).
  assert (O1 : IZR o <= N - 1) by (rewrite <- minus_IZR; apply IZR_le; lia).
  assert (C0 : / 2 <= c <= N - / 2) by (unfold c; lra).
  assert (Ec : brnd (rv (half BA) + rv (b_ofz o)) = c).
  { fold (value (half BA)) (value (b_ofz o)). rewrite Vh, Vo.
    replace (/ 2 + IZR o) with (IZR (2 * o + 1) * bpow radix2 (-1)).
    - rewrite brnd_int_pow by lia. rewrite plus_IZR, mult_IZR. change (bpow radix2 (-1)) with (/ 2). unfold c. field.
    - rewrite plus_IZR, mult_IZR. change (bpow radix2 (-1)) with (/ 2). field. }
  destruct (b_plus_val (half BA) (b_ofz o) Fh Fo) as [Vc Fc].
  { rewrite Ec, Rabs_right by lra. apply Rle_lt_trans with (bpow radix2 50); [lra|]. apply bpow_lt. lia. }
  rewrite Ec in Vc. fold (value (b_plus (half BA) (b_ofz o))) in Vc. set (cc := b_plus (half BA) (b_ofz o)) in *.
  (* delta * c *)
  assert (P1 : 0 < Dl * c) by nra.
  assert (L1 : bpow radix2 (-53) <= Dl * c).
  { change (-53)%Z with (-52 + -1)%Z. rewrite bpow_plus. change (bpow radix2 (-1)) with (/ 2).
    apply Rmult_le_compat; try lra; [apply bpow_ge_0]. }
  assert (U2 : Rabs (Dl * c) <= bpow radix2 (501 + 50)).
  { rewrite Rabs_right by lra. rewrite bpow_plus. apply Rmult_le_compat; lra. }
  pose proof U2 as U2'. apply brnd_abs_pow in U2'; [|lia].
  destruct (b_mult_val dl cc Fdl Fc) as [V1 F1].
  { fold (value dl) (value cc). rewrite Vc. eapply Rle_lt_trans; [exact U2'|]. apply bpow_lt. lia. }
  fold (value dl) (value cc) in V1. rewrite Vc in V1. fold (value (b_mult dl cc)) in V1. set (w1 := b_mult dl cc) in *.
  assert (E1 : Rabs (value w1 - Dl * c) <= ur * (Dl * c)).
  { rewrite V1. rewrite <- (Rabs_right (Dl * c)) at 3 by lra. apply norm_err. rewrite Rabs_right by lra.
    eapply Rle_trans; [|exact L1]. apply bpow_le. lia. }
  apply Rabs_le_inv in E1.
  (* / n *)
  assert (W1 : Dl * c * / 2 <= value w1 <= 2 * (Dl * c)) by nra.
  assert (IN : 0 < / N) by (apply Rinv_0_lt_compat; lra).
  assert (IN1 : / N <= 1) by (rewrite <- Rinv_1; apply Rinv_le; lra).
  assert (IN2 : bpow radix2 (-50) <= / N).
  { change (-50)%Z with (- (50))%Z. rewrite bpow_opp. apply Rinv_le; lra. }
  assert (Q0 : bpow radix2 (-104) <= value w1 / N).
  { change (-104)%Z with (-54 + -50)%Z. rewrite bpow_plus. apply Rmult_le_compat; try apply bpow_ge_0; [|exact IN2].
    apply Rle_trans with (bpow radix2 (-53) * / 2); [|lra].
    change (-54)%Z with (-53 + -1)%Z. rewrite bpow_plus. change (bpow radix2 (-1)) with (/ 2). lra. }
  assert (Q1 : 0 < value w1 / N) by (pose proof (bpow_gt_0 radix2 (-104)); lra).
  assert (DN : Dl * c / N <= Dl).
  { apply Rmult_le_reg_r with N; [lra|]. unfold Rdiv. rewrite Rmult_assoc, Rinv_l by lra. nra. }
  assert (DN0 : 0 < Dl * c / N) by (apply Rmult_lt_0_compat; lra).
  assert (Qe : Rabs (value w1 / N - Dl * c / N) <= ur * (Dl * c / N)).
  { replace (value w1 / N - Dl * c / N) with ((value w1 - Dl * c) * / N) by (field; lra).
    rewrite Rabs_mult, (Rabs_right (/ N)) by lra. unfold Rdiv. rewrite <- Rmult_assoc.
    apply Rmult_le_compat_r; [lra|]. apply Rabs_le. lra. }
  apply Rabs_le_inv in Qe.
  assert (Q2 : Rabs (value w1 / N) <= bpow radix2 502).
  { rewrite Rabs_right by lra. change (bpow radix2 502) with (bpow radix2 (1 + 501)). rewrite bpow_plus.
    change (bpow radix2 1) with 2. nra. }
  pose proof Q2 as Q2'. apply brnd_abs_pow in Q2'; [|lia].
  destruct (b_div_val w1 (b_ofz n) F1) as [V2 F2].
  { fold (value (b_ofz n)). rewrite Vn. apply Rgt_not_eq. lra. }
  { fold (value w1) (value (b_ofz n)). rewrite Vn. eapply Rle_lt_trans; [exact Q2'|]. apply bpow_lt. lia. }
  fold (value w1) (value (b_ofz n)) in V2. rewrite Vn in V2. fold (value (b_div w1 (b_ofz n))) in V2.
  set (w2 := b_div w1 (b_ofz n)) in *.
  assert (E2 : Rabs (value w2 - value w1 / N) <= ur * (value w1 / N)).
  { rewrite V2. rewrite <- (Rabs_right (value w1 / N)) at 3 by lra. apply norm_err. rewrite Rabs_right by lra.
    eapply Rle_trans; [|exact Q0]. apply bpow_le. lia. }
  apply Rabs_le_inv in E2. set (s := Dl * c / N) in *.
  assert (E3 : Rabs (value w2 - s) <= 3 * ur * s).
  { apply Rabs_le. assert (ur * (value w1 / N) <= ur * (s + ur * s)) by (apply Rmult_le_compat_l; lra).
    assert (ur * ur * s <= ur * s * / 1024) by nra. nra. }
  apply Rabs_le_inv in E3.
  (* mn + *)
  destruct Hmn as [Fm Bm].
  assert (M1 : Rabs (Mn + value w2) <= bpow radix2 503).
  { eapply Rle_trans; [apply Rabs_triang|]. rewrite (Rabs_right (value w2)) by nra.
    assert (value w2 <= 2 * Dl) by nra. assert (bpow radix2 500 <= bpow radix2 502) by (apply bpow_le; lia).
    assert (X1 : bpow radix2 502 = 2 * bpow radix2 501) by (change (502)%Z with (1 + 501)%Z; rewrite bpow_plus; reflexivity).
    assert (X2 : bpow radix2 503 = 2 * bpow radix2 502) by (change (503)%Z with (1 + 502)%Z; rewrite bpow_plus; reflexivity).
    lra. }
  pose proof M1 as M1'. apply brnd_abs_pow in M1'; [|lia].
  destruct (b_plus_val mn w2 Fm F2) as [V3 F3].
  { fold (value mn) (value w2). eapply Rle_lt_trans; [exact M1'|]. apply bpow_lt. lia. }
  fold (value mn) (value w2) in V3. fold (value (b_plus mn w2)) in V3. change (b_plus mn w2) with (mid o) in *.
  split; [split; [exact F3|]; rewrite V3; exact M1'|].
  assert (E4 : Rabs (value (mid o) - (Mn + value w2)) <= ur * Rabs (Mn + value w2)) by (rewrite V3; apply plus_err; apply fmt_value).
  replace (value (mid o) - (Mn + s)) with ((value (mid o) - (Mn + value w2)) + (value w2 - s)) by ring.
  eapply Rle_trans; [apply Rabs_triang|].
  assert (T : Rabs (Mn + value w2) <= Rabs Mn + 2 * Dl).
  { eapply Rle_trans; [apply Rabs_triang|]. rewrite (Rabs_right (value w2)) by nra. nra. }
  assert (ur * Rabs (Mn + value w2) <= ur * (Rabs Mn + 2 * Dl)) by (apply Rmult_le_compat_l; lra).
  assert (Rabs (value w2 - s) <= 3 * ur * Dl) by (apply Rabs_le; nra). lra.
Qed.

(** The position of that middle. *)
Lemma mid_pos o : (0 <= o <= n - 1)%Z -> N * ur * (Rabs Mn / Dl + 5) <= 1 ->
  small 503 (mid o) /\ finite (gam (mid o)) /\
  Rabs (value (gam (mid o)) - (IZR o + / 2)) <= N * ur * (Rabs Mn / Dl + 14).
Proof.
  intros Ho K1. destruct (mid_val o Ho) as [S E]. destruct (gam_val _ S) as [F [G _]].
  split; [exact S|]. split; [exact F|]. pose proof N_ge as N1. pose proof Dl_pos as D0.
  pose proof ur_pos as U. pose proof ur_lt as U1.
  set (c := IZR o + / 2) in *. set (t := value (mid o) - Mn) in *. set (k := N * ur * (Rabs Mn / Dl + 5)) in *.
  assert (C : 0 <= c <= N).
  { unfold c. assert (0 <= IZR o) by (apply IZR_le; lia).
    assert (IZR o <= N - 1) by (rewrite <- minus_IZR; apply IZR_le; lia). lra. }
  assert (A : Rabs (N * t / Dl - c) <= k).
  { replace (N * t / Dl - c) with (N * / Dl * (t - Dl * c / N)) by (field; lra).
    assert (P : 0 < N * / Dl) by (apply Rmult_lt_0_compat; [lra|apply Rinv_0_lt_compat, D0]).
    rewrite Rabs_mult, (Rabs_right (N * / Dl)) by lra.
    replace (t - Dl * c / N) with (value (mid o) - (Mn + Dl * c / N)) by (unfold t; ring).
    eapply Rle_trans; [apply Rmult_le_compat_l; [lra|exact E]|]. unfold k. apply Req_le. field. lra. }
  set (a := N * t / Dl) in *.
  assert (Aa : Rabs a <= N + 1). { apply Rabs_le. apply Rabs_le_inv in A. lra. }
  replace (value (gam (mid o)) - c) with ((value (gam (mid o)) - a) + (a - c)) by ring.
  eapply Rle_trans; [apply Rabs_triang|].
  assert (4 * ur * Rabs a <= 4 * ur * (N + 1)) by (apply Rmult_le_compat_l; lra).
  replace (N * ur * (Rabs Mn / Dl + 14)) with (k + 9 * (N * ur)) by (unfold k; ring).
  assert (ur <= N * ur) by nra. nra.
Qed.
End Axis.
