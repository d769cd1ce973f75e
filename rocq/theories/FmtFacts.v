(** Digits, rounding and reading of formatted numbers. *)
From Coq Require Import String Ascii ZArith Reals Lia Lra.
From Flocq Require Import Core BinarySingleNaN.
From Verif Require Import Base ModelArith ModelFloat SpecDouble ModelFmt SpecFmt.
Local Open Scope Z_scope.

Definition is_digit (d : Z) : Prop := 0 <= d <= 9.

(** *** Lists of digits *)
Lemma number_acc ds : forall a, fold_left (fun a d => 10 * a + d) ds a = a * 10 ^ len ds + number_of ds.
Proof.
  unfold number_of, len. induction ds as [|d ds IH]; intro a; [simpl; lia|].
  cbn [fold_left length]. rewrite IH, (IH (10 * 0 + d)). rewrite Nat2Z.inj_succ, Z.pow_succ_r by lia. ring.
Qed.
Lemma number_app ds es : number_of (ds ++ es) = number_of ds * 10 ^ len es + number_of es.
Proof. unfold number_of at 1. rewrite fold_left_app. apply number_acc. Qed.
Lemma number_cons d ds : number_of (d :: ds) = d * 10 ^ len ds + number_of ds.
Proof. change (d :: ds) with ([d] ++ ds). rewrite number_app. reflexivity. Qed.
Lemma len_app {A} (l k : list A) : len (l ++ k) = len l + len k.
Proof. unfold len. rewrite app_length. lia. Qed.
Lemma len_nonneg {A} (l : list A) : 0 <= len l.
Proof. unfold len. lia. Qed.
Lemma len_zeros n : 0 <= n -> len (zeros n) = n.
Proof. intro H. unfold len, zeros. rewrite repeat_length. lia. Qed.
Lemma zeros_digits n : Forall is_digit (zeros n).
Proof. apply Forall_forall. intros x H. apply repeat_spec in H. subst. unfold is_digit. lia. Qed.
Lemma number_zeros n : number_of (zeros n) = 0.
Proof. unfold zeros, number_of. induction (Z.to_nat n) as [|k IH]; [reflexivity|exact IH]. Qed.

Lemma number_bound ds : Forall is_digit ds -> 0 <= number_of ds < 10 ^ len ds.
Proof.
  induction 1 as [|d ds H _ IH]; [unfold number_of, len; simpl; lia|]. rewrite number_cons. unfold is_digit in H.
  unfold len in *. cbn [length]. rewrite Nat2Z.inj_succ, Z.pow_succ_r by lia. nia.
Qed.

(** Digits are determined by the number and their count. *)
Lemma digits_unique ds : forall es, Forall is_digit ds -> Forall is_digit es -> length ds = length es ->
  number_of ds = number_of es -> ds = es.
Proof.
  induction ds as [|d ds IH]; intros [|e es] H K L E; try discriminate; [reflexivity|].
  inversion H; inversion K; subst. injection L as L. rewrite !number_cons in E.
  pose proof (number_bound ds ltac:(assumption)). pose proof (number_bound es ltac:(assumption)).
  assert (Q : len ds = len es) by (unfold len; lia). rewrite Q in *.
  assert (P : 0 < 10 ^ len es) by (apply Z.pow_pos_nonneg; [lia|apply len_nonneg]).
  assert (d = e) by nia. subst e. f_equal. apply IH; try assumption. nia.
Qed.

Lemma digits_fuel_spec fuel : forall n acc, 0 <= n < 2 ^ Z.of_nat fuel ->
  exists ds, digits_fuel fuel n acc = ds ++ acc /\ Forall is_digit ds /\ number_of ds = n /\
    (n = 0 -> ds = []) /\ (0 < n -> 10 ^ (len ds - 1) <= n /\ 1 <= len ds).
Proof.
  induction fuel as [|k IH]; intros n acc H.
  - simpl in H. assert (n = 0) by lia. subst n. exists []. repeat split; auto; lia.
  - cbn [digits_fuel]. destruct (Z.leb_spec n 0).
    + assert (n = 0) by lia. subst n. exists []. repeat split; auto; lia.
    + assert (B : 0 <= n / 10 < 2 ^ Z.of_nat k).
      { rewrite Nat2Z.inj_succ, Z.pow_succ_r in H by lia. split; [apply Z.div_pos; lia|]. apply Z.div_lt_upper_bound; lia. }
      destruct (IH (n / 10) (n mod 10 :: acc) B) as [ds [E [F [N [Z P]]]]].
      exists (ds ++ [n mod 10]). rewrite <- app_assoc. split; [exact E|].
      pose proof (Z.mod_pos_bound n 10 ltac:(lia)). pose proof (Z.div_mod n 10 ltac:(lia)).
      split; [apply Forall_app; split; [exact F|constructor; [unfold is_digit; lia|constructor]]|].
      split. { rewrite number_app, N. unfold len, number_of. simpl. lia. }
      split; [intro; lia|]. intros _. rewrite len_app. change (len [n mod 10]) with 1. pose proof (len_nonneg ds).
      split; [|lia]. replace (len ds + 1 - 1) with (len ds) by lia.
      destruct (Z.eq_dec (n / 10) 0) as [Q|Q]; [rewrite (Z Q); unfold len; simpl; lia|].
      destruct (P ltac:(lia)) as [P1 P2]. replace (len ds) with (Z.succ (len ds - 1)) by lia.
      rewrite Z.pow_succ_r by lia. lia.
Qed.

Lemma digits_spec n : 0 < n -> Forall is_digit (digits n) /\ number_of (digits n) = n /\
  10 ^ (len (digits n) - 1) <= n < 10 ^ len (digits n) /\ 1 <= len (digits n).
Proof.
  intro H. unfold digits.
  destruct (digits_fuel_spec (S (Z.to_nat (Z.log2 n))) n []) as [ds [E [F [N [_ P]]]]].
  - rewrite Nat2Z.inj_succ, Z2Nat.id by apply Z.log2_nonneg. pose proof (Z.log2_spec n H). lia.
  - rewrite E, app_nil_r. destruct (P H) as [P1 P2]. pose proof (number_bound ds F). repeat split; auto; lia.
Qed.
Lemma digits_0 : digits 0 = [].
Proof. reflexivity. Qed.

Lemma digits_known n ds : Forall is_digit ds -> number_of ds = n -> 0 < n -> 10 ^ (len ds - 1) <= n -> digits n = ds.
Proof.
  intros F N H B. destruct (digits_spec n H) as [F' [N' [[B1 B2] L]]]. pose proof (number_bound ds F) as Q.
  pose proof (len_nonneg ds).
  apply digits_unique; auto; [|congruence].
  assert (E : len (digits n) = len ds).
  { rewrite N in Q. destruct (Z.lt_trichotomy (len (digits n)) (len ds)) as [G|[G|G]]; [|exact G|].
    - exfalso. assert (10 ^ len (digits n) <= 10 ^ (len ds - 1)) by (apply Z.pow_le_mono_r; lia). lia.
    - exfalso. assert (10 ^ len ds <= 10 ^ (len (digits n) - 1)) by (apply Z.pow_le_mono_r; lia). lia. }
  unfold len in E. lia.
Qed.

(** *** Trailing zeros *)
Lemma drop_zeros_spec l : exists k, l = repeat 0 k ++ drop_zeros l.
Proof.
  induction l as [|d l [k IH]]; [exists 0%nat; reflexivity|]. destruct d as [|d|d].
  - exists (S k). cbn [drop_zeros repeat app]. rewrite <- IH. reflexivity.
  - exists 0%nat. reflexivity.
  - exists 0%nat. reflexivity.
Qed.
Lemma rev_repeat {A} (x : A) k : rev (repeat x k) = repeat x k.
Proof. induction k as [|k IH]; [reflexivity|]. cbn [repeat rev]. rewrite IH. symmetry. apply repeat_cons. Qed.
Lemma strip_spec l : exists k, l = strip l ++ zeros k /\ 0 <= k.
Proof.
  destruct (drop_zeros_spec (rev l)) as [k E]. exists (Z.of_nat k). split; [|lia]. unfold strip, zeros. rewrite Nat2Z.id.
  rewrite <- (rev_involutive l) at 1. rewrite E at 1. rewrite rev_app_distr, rev_repeat. reflexivity.
Qed.
Lemma strip_zeros l k : strip (l ++ zeros k) = strip l.
Proof.
  unfold strip, zeros. f_equal. rewrite rev_app_distr, rev_repeat.
  induction (Z.to_nat k) as [|j IH]; [reflexivity|exact IH].
Qed.
Lemma strip_ok n : 0 < n -> let ds := digits n in
  Forall is_digit (strip ds) /\ strip ds <> [] /\ 1 <= len (strip ds) <= len ds /\
  n = number_of (strip ds) * 10 ^ (len ds - len (strip ds)).
Proof.
  intros H ds. destruct (digits_spec n H) as [F [N [B L]]]. fold ds in F, N, B, L.
  destruct (strip_spec ds) as [k [E K]]. set (s := strip ds) in *. clearbody s. rewrite E in F, N.
  apply Forall_app in F. destruct F as [F _]. rewrite number_app, number_zeros, Z.add_0_r, len_zeros in N by exact K.
  assert (LE : len ds = len s + k) by (rewrite E, len_app, len_zeros by exact K; reflexivity).
  assert (NE : s <> []) by (intro Q; subst s; unfold number_of in N; simpl in N; lia).
  split; [exact F|]. split; [exact NE|]. split.
  - destruct s; [contradiction|]. unfold len in *. cbn [length] in *. lia.
  - rewrite <- N. f_equal. f_equal. lia.
Qed.

(** *** Rounding *)
Lemma nearest_ok a b : 0 < b -> nearest a b = ZnearestE (IZR a / IZR b).
Proof.
  intro Hb. unfold nearest, Znearest. rewrite Zfloor_div by lia.
  pose proof (Z.div_mod a b ltac:(lia)) as D. pose proof (Z.mod_pos_bound a b Hb) as M.
  set (q := a / b) in *. set (r := a mod b) in *. assert (Pb : (0 < IZR b)%R) by (apply IZR_lt; exact Hb).
  assert (V : (IZR a / IZR b - IZR q = IZR r / IZR b)%R).
  { rewrite D, plus_IZR, mult_IZR. field. lra. }
  rewrite V. assert (C : r <> 0 -> Zceil (IZR a / IZR b) = q + 1).
  { intro R0. transitivity (Zfloor (IZR a / IZR b) + 1); [|rewrite Zfloor_div by lia; reflexivity]. apply Zceil_floor_neq. rewrite Zfloor_div by lia. fold q. intro E.
    apply R0. apply eq_IZR. assert ((IZR r / IZR b = 0)%R) by lra. apply (Rmult_eq_reg_r (/ IZR b)); [|apply Rinv_neq_0_compat; lra].
    unfold Rdiv in H. rewrite H. ring. }
  destruct (Z.compare_spec (2 * r) b) as [E|E|E].
  - rewrite Rcompare_Eq; [|rewrite <- E, mult_IZR; field; apply IZR_neq; lia].
    rewrite C by lia. destruct (Z.even q); reflexivity.
  - rewrite Rcompare_Lt; [reflexivity|]. apply (Rmult_lt_reg_r (IZR b)); [exact Pb|]. unfold Rdiv. rewrite Rmult_assoc, Rinv_l, Rmult_1_r by lra.
    apply IZR_lt in E. rewrite mult_IZR in E. lra.
  - rewrite Rcompare_Gt; [rewrite C by lia; reflexivity|]. apply (Rmult_lt_reg_r (IZR b)); [exact Pb|]. unfold Rdiv. rewrite Rmult_assoc, Rinv_l, Rmult_1_r by lra.
    apply IZR_lt in E. rewrite mult_IZR in E. lra.
Qed.

Lemma pow_bpow k : 0 <= k -> IZR (10 ^ k) = bpow ten k.
Proof. intro H. rewrite <- (IZR_Zpower ten) by exact H. reflexivity. Qed.
Lemma scale_ratio a b k : 0 < b ->
  (IZR (a * 10 ^ Z.max 0 k) / IZR (b * 10 ^ Z.max 0 (- k)) = IZR a / IZR b * bpow ten k)%R.
Proof.
  intro Hb. rewrite !mult_IZR, !pow_bpow by lia. assert (IZR b <> 0)%R by (apply IZR_neq; lia).
  destruct (Z.le_ge_cases 0 k).
  - rewrite Z.max_r, (Z.max_l 0 (- k)) by lia. simpl (bpow ten 0). field. exact H.
  - rewrite Z.max_l, (Z.max_r 0 (- k)) by lia. simpl (bpow ten 0). rewrite (bpow_opp ten k).
    pose proof (bpow_gt_0 ten k). field. repeat split; lra.
Qed.
Lemma at_least_pow_spec a b k : 0 < b -> at_least_pow a b k = true <-> (bpow ten k <= IZR a / IZR b)%R.
Proof.
  intro Hb. unfold at_least_pow. rewrite Z.leb_le.
  assert (P : (0 < IZR b)%R) by (apply IZR_lt; exact Hb).
  assert (G : (0 < IZR (10 ^ Z.max 0 (- k)))%R) by (rewrite pow_bpow by lia; apply bpow_gt_0).
  assert (S : (bpow ten k = IZR (10 ^ Z.max 0 k) / IZR (10 ^ Z.max 0 (- k)))%R).
  { pose proof (scale_ratio 1 1 k ltac:(lia)) as Q. rewrite !Z.mul_1_l in Q. rewrite Q. field. }
  rewrite S. split; intro H.
  - apply IZR_le in H. rewrite !mult_IZR in H. apply (Rmult_le_reg_r (IZR b)); [exact P|].
    apply (Rmult_le_reg_r (IZR (10 ^ Z.max 0 (- k)))); [exact G|]. 
    replace (IZR (10 ^ Z.max 0 k) / IZR (10 ^ Z.max 0 (- k)) * IZR b * IZR (10 ^ Z.max 0 (- k)))%R with (IZR b * IZR (10 ^ Z.max 0 k))%R by (field; lra).
    replace (IZR a / IZR b * IZR b * IZR (10 ^ Z.max 0 (- k)))%R with (IZR a * IZR (10 ^ Z.max 0 (- k)))%R by (field; lra). exact H.
  - apply le_IZR. rewrite !mult_IZR. 
    apply (Rmult_le_compat_r (IZR b * IZR (10 ^ Z.max 0 (- k)))) in H; [|apply Rmult_le_pos; lra].
    replace (IZR (10 ^ Z.max 0 k) / IZR (10 ^ Z.max 0 (- k)) * (IZR b * IZR (10 ^ Z.max 0 (- k))))%R with (IZR b * IZR (10 ^ Z.max 0 k))%R in H by (field; lra).
    replace (IZR a / IZR b * (IZR b * IZR (10 ^ Z.max 0 (- k))))%R with (IZR a * IZR (10 ^ Z.max 0 (- k)))%R in H by (field; lra). exact H.
Qed.

Lemma exponent_spec a b : 0 < a -> 0 < b ->
  (bpow ten (exponent a b) <= IZR a / IZR b < bpow ten (exponent a b + 1))%R.
Proof.
  intros Ha Hb. unfold exponent. destruct (digits_spec a Ha) as [_ [_ [[A1 A2] A3]]], (digits_spec b Hb) as [_ [_ [[B1 B2] B3]]].
  set (la := len (digits a)) in *. set (lb := len (digits b)) in *.
  apply IZR_le in A1, B1. apply IZR_lt in A2, B2. rewrite pow_bpow in A1, A2, B1, B2 by lia.
  assert (P : (0 < IZR b)%R) by (apply IZR_lt; exact Hb).
  assert (L : (bpow ten (la - lb - 1) <= IZR a / IZR b)%R).
  { apply (Rmult_le_reg_r (IZR b)); [exact P|]. unfold Rdiv. rewrite Rmult_assoc, Rinv_l, Rmult_1_r by lra.
    apply Rle_trans with (bpow ten (la - 1)); [|exact A1].
    replace (la - 1) with (la - lb - 1 + lb) by lia. rewrite bpow_plus. apply Rmult_le_compat_l; [apply bpow_ge_0|lra]. }
  assert (U : (IZR a / IZR b < bpow ten (la - lb + 1))%R).
  { apply (Rmult_lt_reg_r (IZR b)); [exact P|]. unfold Rdiv. rewrite Rmult_assoc, Rinv_l, Rmult_1_r by lra.
    apply Rlt_le_trans with (bpow ten la); [exact A2|].
    replace la with (la - lb + 1 + (lb - 1)) at 1 by lia. rewrite bpow_plus. apply Rmult_le_compat_l; [apply bpow_ge_0|lra]. }
  destruct (at_least_pow a b (la - lb)) eqn:E.
  - apply at_least_pow_spec in E; [|exact Hb]. split; [exact E|exact U].
  - split; [exact L|]. replace (la - lb - 1 + 1) with (la - lb) by lia.
    destruct (Rlt_le_dec (IZR a / IZR b) (bpow ten (la - lb))) as [Q|Q]; [exact Q|].
    apply (at_least_pow_spec a b) in Q; [congruence|exact Hb].
Qed.

Definition round10 (p : Z) (x : R) : R := round ten (FLX_exp p) ZnearestE x.

Lemma dec_pow m e k : 0 <= k -> dec (m * 10 ^ k) e = dec m (e + k).
Proof. intro H. unfold dec. rewrite mult_IZR, pow_bpow, bpow_plus by exact H. ring. Qed.

Lemma significant_spec p a b m e : 1 <= p -> 0 < a -> 0 < b -> significant p a b = (m, e) ->
  10 ^ (p - 1) <= m < 10 ^ p /\ dec m (e + 1 - p) = round10 p (IZR a / IZR b) /\ exponent a b <= e <= exponent a b + 1.
Proof.
  intros Hp Ha Hb. unfold significant. pose proof (exponent_spec a b Ha Hb) as X. set (x := (IZR a / IZR b)%R) in *.
  set (e0 := exponent a b) in *. set (k := p - 1 - e0) in *.
  rewrite nearest_ok by (apply Z.mul_pos_pos; [exact Hb|apply Z.pow_pos_nonneg; lia]). rewrite scale_ratio by exact Hb. fold x.
  assert (S1 : (bpow ten (p - 1) <= x * bpow ten k)%R).
  { replace (p - 1) with (e0 + k) by (unfold k; lia). rewrite bpow_plus. apply Rmult_le_compat_r; [apply bpow_ge_0|apply X]. }
  assert (S2 : (x * bpow ten k < bpow ten p)%R).
  { replace p with (e0 + 1 + k) by (unfold k; lia). rewrite bpow_plus. apply Rmult_lt_compat_r; [apply bpow_gt_0|apply X]. }
  set (n := ZnearestE (x * bpow ten k)).
  assert (N1 : 10 ^ (p - 1) <= n).
  { unfold n. rewrite <- (Zrnd_IZR ZnearestE (10 ^ (p - 1))). apply Zrnd_le; [apply valid_rnd_N|]. rewrite pow_bpow by lia. exact S1. }
  assert (N2 : n <= 10 ^ p).
  { unfold n. rewrite <- (Zrnd_IZR ZnearestE (10 ^ p)). apply Zrnd_le; [apply valid_rnd_N|]. rewrite pow_bpow by lia. lra. }
  assert (R : round10 p x = dec n (e0 + 1 - p)).
  { unfold round10, round, F2R, dec. cbn [Fnum Fexp]. assert (MG : mag ten x = e0 + 1 :> Z).
    { apply mag_unique_pos. replace (e0 + 1 - 1) with e0 by lia. exact X. }
    unfold cexp, scaled_mantissa, cexp, FLX_exp. rewrite MG. unfold n, k. replace (- (e0 + 1 - p)) with (p - 1 - e0) by lia. reflexivity. }
  rewrite R. destruct (Z.eqb_spec n (10 ^ p)) as [Q|Q]; intro E; injection E as <- <-.
  - split; [split; [lia|apply Z.pow_lt_mono_r; lia]|]. split; [|lia]. rewrite Q.
    replace (10 ^ p) with (10 ^ (p - 1) * 10 ^ 1) by (rewrite <- Z.pow_add_r by lia; f_equal; lia).
    rewrite dec_pow by lia. f_equal. lia.
  - split; [lia|]. split; [reflexivity|lia].
Qed.

(** *** Reading *)
Lemma digit_of_char d : is_digit d -> digit_of (digit_char d) = Some d.
Proof.
  intros [H1 H2]. assert (C : d = 0 \/ d = 1 \/ d = 2 \/ d = 3 \/ d = 4 \/ d = 5 \/ d = 6 \/ d = 7 \/ d = 8 \/ d = 9) by lia.
  repeat (destruct C as [C|C]; [subst d; reflexivity|]). subst d. reflexivity.
Qed.
Definition no_digit (s : string) : Prop :=
  match s with EmptyString => True | String c _ => digit_of c = None end.
Lemma take_digits_text ds : forall r, Forall is_digit ds -> no_digit r -> take_digits (text_of ds ++ r) = (ds, r).
Proof.
  induction ds as [|d ds IH]; intros r F N.
  - cbn [text_of append]. destruct r as [|c r]; [reflexivity|]. cbn [take_digits]. simpl in N. rewrite N. reflexivity.
  - inversion F; subst. cbn [text_of append take_digits]. rewrite digit_of_char by assumption.
    rewrite (IH r) by assumption. reflexivity.
Qed.
Lemma append_nil_r s : (s ++ "")%string = s.
Proof. induction s as [|c s IH]; [reflexivity|]. simpl. rewrite IH. reflexivity. Qed.
Lemma append_assoc s t u : ((s ++ t) ++ u)%string = (s ++ t ++ u)%string.
Proof. induction s as [|c s IH]; [reflexivity|]. simpl. rewrite IH. reflexivity. Qed.

Lemma read_exponent_text e : read_exponent (exponent_text e) = Some e.
Proof.
  unfold exponent_text. set (ds := zeros (2 - len (digits (Z.abs e))) ++ digits (Z.abs e)).
  assert (F : Forall is_digit ds /\ number_of ds = Z.abs e /\ ds <> []).
  { unfold ds. destruct (Z.eq_dec e 0) as [->|N].
    - simpl. repeat split; [repeat constructor; unfold is_digit; lia|discriminate].
    - destruct (digits_spec (Z.abs e) ltac:(lia)) as [F [V [_ L]]].
      split; [apply Forall_app; split; [apply zeros_digits|exact F]|].
      split; [rewrite number_app, number_zeros; lia|]. intro E. apply app_eq_nil in E. destruct E as [_ E]. rewrite E in L. unfold len in L. simpl in L. lia. }
  destruct F as [F [V NE]]. clearbody ds. unfold read_exponent.
  rewrite <- (append_nil_r (text_of ds)), take_digits_text by (auto; exact I).
  destruct ds as [|d ds']; [contradiction|]. rewrite V. destruct (Z.ltb_spec e 0); simpl; f_equal; lia.
Qed.
Lemma no_digit_exponent e : no_digit (exponent_text e).
Proof. reflexivity. Qed.

Lemma read_fraction_int i r : Forall is_digit i -> i <> [] -> no_digit r -> (forall r', r <> String "." r') ->
  read_fraction (text_of i ++ r) = Some (i, [], r).
Proof.
  intros F NE N P. unfold read_fraction. rewrite take_digits_text by assumption. destruct i as [|d i]; [contradiction|].
  destruct r as [|c r]; [reflexivity|]. destruct c as [[] [] [] [] [] [] [] []]; try reflexivity. exfalso. apply (P r). reflexivity.
Qed.
Lemma read_fraction_point i fr r : Forall is_digit i -> i <> [] -> Forall is_digit fr -> no_digit r ->
  read_fraction (text_of i ++ "." ++ text_of fr ++ r) = Some (i, fr, r).
Proof.
  intros F NE F2 N. unfold read_fraction. rewrite take_digits_text by (auto; reflexivity). destruct i as [|d i]; [contradiction|].
  cbn [append]. rewrite take_digits_text by assumption. reflexivity.
Qed.

Lemma Forall_firstn_skipn {A} (P : A -> Prop) n l : Forall P l -> Forall P (firstn n l) /\ Forall P (skipn n l).
Proof. intro H. rewrite <- (firstn_skipn n l) in H. apply Forall_app in H. exact H. Qed.

Lemma layout_read p e ds : Forall is_digit ds -> ds <> [] ->
  exists M E, read_unsigned (layout_g p e ds) = Some (M, E) /\ dec M E = dec (number_of ds) (e + 1 - len ds).
Proof.
  intros F NE. unfold layout_g. destruct ((e + 1 <=? -4) || (p <? e + 1)) eqn:X.
  - destruct ds as [|d [|d2 l]]; [contradiction| |].
    + unfold read_unsigned. rewrite read_fraction_int; [|exact F|discriminate|apply no_digit_exponent|intros r' Q; discriminate Q].
      rewrite read_exponent_text. eexists _, _. split; [reflexivity|]. cbn [length]. f_equal. unfold len. cbn. lia.
    + inversion F; subst. unfold read_unsigned. rewrite read_fraction_point; [|constructor; [assumption|constructor]|discriminate|assumption|apply no_digit_exponent].
      rewrite read_exponent_text. eexists _, _. split; [reflexivity|]. f_equal. unfold len. cbn [length]. lia.
  - clear X. destruct (Z.leb_spec (e + 1) 0) as [P|P].
    + unfold read_unsigned. rewrite <- (append_nil_r (text_of (zeros _ ++ ds))).
      rewrite read_fraction_point; [|repeat constructor; unfold is_digit; lia|discriminate|apply Forall_app; split; [apply zeros_digits|exact F]|exact I].
      cbn [read_exponent]. eexists _, _. split; [reflexivity|].
      cbn [app]. rewrite number_cons, number_app, number_zeros. replace (0 * 10 ^ len (zeros (- (e + 1)) ++ ds) + (0 * 10 ^ len ds + number_of ds)) with (number_of ds) by lia. f_equal.
      change (Z.of_nat (length (zeros (- (e + 1)) ++ ds))) with (len (zeros (- (e + 1)) ++ ds)). rewrite len_app, len_zeros by lia. lia.
    + destruct (Z.leb_spec (len ds) (e + 1)) as [L|L].
      * unfold read_unsigned. rewrite <- (append_nil_r (text_of _)).
        rewrite read_fraction_int; [|apply Forall_app; split; [exact F|apply zeros_digits]|destruct ds; [contradiction|discriminate]|exact I|intros r' Q; discriminate Q].
        cbn [read_exponent]. eexists _, _. split; [reflexivity|]. rewrite app_nil_r, number_app, number_zeros, len_zeros, Z.add_0_r by lia.
        rewrite dec_pow by lia. f_equal; cbn [length]; lia.
      * destruct (Forall_firstn_skipn is_digit (Z.to_nat (e + 1)) ds F) as [F1 F2].
        unfold read_unsigned. rewrite <- (append_nil_r (text_of (skipn _ _))).
        rewrite read_fraction_point; [|exact F1| |exact F2|exact I].
        -- cbn [read_exponent]. eexists _, _. split; [reflexivity|]. rewrite firstn_skipn. f_equal. rewrite skipn_length. unfold len in *. lia.
        -- destruct ds as [|d ds]; [contradiction|]. destruct (Z.to_nat (e + 1)) eqn:Q; [lia|discriminate].
Qed.

Lemma text_no_sign d ds r : is_digit d -> forall s', (text_of (d :: ds) ++ r)%string <> String "-" s'.
Proof.
  intros [H1 H2] s' E. cbn [text_of append] in E. injection E as E _.
  assert (C : d = 0 \/ d = 1 \/ d = 2 \/ d = 3 \/ d = 4 \/ d = 5 \/ d = 6 \/ d = 7 \/ d = 8 \/ d = 9) by lia.
  repeat (destruct C as [C|C]; [subst d; discriminate E|]). subst d. discriminate E.
Qed.
Lemma layout_no_sign p e ds : Forall is_digit ds -> ds <> [] -> forall s', layout_g p e ds <> String "-" s'.
Proof.
  intros F NE s'. destruct ds as [|d ds]; [contradiction|]. inversion F; subst. unfold layout_g. destruct ((e + 1 <=? -4) || (p <? e + 1)).
  - destruct ds; apply text_no_sign; assumption.
  - destruct (e + 1 <=? 0); [apply text_no_sign; unfold is_digit; lia|]. destruct (Z.leb_spec (len (d :: ds)) (e + 1)).
    + rewrite <- (append_nil_r (text_of _)). apply text_no_sign; assumption.
    + destruct (Z.to_nat (e + 1)) eqn:Q; [|apply text_no_sign; assumption]. cbn [firstn skipn text_of append]. discriminate.
Qed.

Lemma fmt_ratio_read p a b : 1 <= p -> 0 < a -> 0 < b ->
  exists M E, read_unsigned (fmt_ratio p a b) = Some (M, E) /\ dec M E = round10 p (IZR a / IZR b) /\
    forall s', fmt_ratio p a b <> String "-" s'.
Proof.
  intros Hp Ha Hb. unfold fmt_ratio. destruct (significant p a b) as [m e] eqn:S.
  destruct (significant_spec p a b m e Hp Ha Hb S) as [[M1 M2] [V _]].
  assert (Hm : 0 < m) by (pose proof (Z.pow_pos_nonneg 10 (p - 1)); lia).
  destruct (strip_ok m Hm) as [F [NE [L N]]]. destruct (layout_read p e _ F NE) as [M [E [R Q]]].
  exists M, E. split; [exact R|]. split; [|apply layout_no_sign; assumption]. rewrite Q, <- V.
  destruct (digits_spec m Hm) as [_ [_ [[D1 D2] D3]]].
  assert (LP : len (digits m) = p).
  { destruct (Z.lt_trichotomy (len (digits m)) p) as [G|[G|G]]; [|exact G|].
    - exfalso. assert (10 ^ len (digits m) <= 10 ^ (p - 1)) by (apply Z.pow_le_mono_r; lia). lia.
    - exfalso. assert (10 ^ p <= 10 ^ (len (digits m) - 1)) by (apply Z.pow_le_mono_r; lia). lia. }
  transitivity (dec (number_of (strip (digits m)) * 10 ^ (len (digits m) - len (strip (digits m)))) (e + 1 - p)); [|rewrite <- N; reflexivity].
  rewrite dec_pow by lia. f_equal. lia.
Qed.

(** *** Doubles *)
Definition num_of (m : positive) (e : Z) : Z := Zpos m * 2 ^ Z.max 0 e.
Definition den_of (e : Z) : Z := 2 ^ Z.max 0 (- e).
Lemma ratio_value m e : 0 < num_of m e /\ 0 < den_of e /\ (IZR (num_of m e) / IZR (den_of e) = IZR (Zpos m) * bpow radix2 e)%R.
Proof.
  unfold num_of, den_of. split; [apply Z.mul_pos_pos; [lia|apply Z.pow_pos_nonneg; lia]|]. split; [apply Z.pow_pos_nonneg; lia|].
  rewrite mult_IZR. rewrite !(IZR_Zpower radix2) by lia.
  destruct (Z.le_ge_cases 0 e).
  - rewrite Z.max_r, (Z.max_l 0 (- e)) by lia. simpl (bpow radix2 0). field.
  - rewrite Z.max_l, (Z.max_r 0 (- e)) by lia. simpl (bpow radix2 0). rewrite (bpow_opp radix2 e).
    pose proof (bpow_gt_0 radix2 e). field. lra.
Qed.

Lemma read_neg s : read_decimal (String "-" s) = option_map (fun p => (- dec (fst p) (snd p))%R) (read_unsigned s).
Proof. reflexivity. Qed.
Lemma read_pos s : (forall s', s <> String "-" s') -> read_decimal s = option_map (fun p => dec (fst p) (snd p)) (read_unsigned s).
Proof.
  intro H. destruct s as [|c s]; [reflexivity|]. destruct c as [[] [] [] [] [] [] [] []]; try reflexivity. exfalso. apply (H s). reflexivity.
Qed.

Lemma fmt_read p (x : b64) : 1 <= p -> is_finite x = true -> read_decimal (fmt_b64 p x) = Some (round10 p (value x)).
Proof.
  intros Hp Hx. destruct x as [s|s| |s m e Hb]; try discriminate.
  - assert (Z0 : round10 p (value (B754_zero s)) = 0%R) by (unfold round10, value, B2R; apply round_0, valid_rnd_N).
    rewrite Z0. assert (D : dec 0 0 = 0%R) by (unfold dec; apply Rmult_0_l). destruct s.
    + transitivity (Some (- dec 0 0)%R); [reflexivity|]. rewrite D, Ropp_0. reflexivity.
    + transitivity (Some (dec 0 0)); [reflexivity|]. rewrite D. reflexivity.
  - destruct (ratio_value m e) as [A [B V]]. destruct (fmt_ratio_read p _ _ Hp A B) as [M [E [R [Q S]]]]. rewrite V in Q.
    unfold fmt_b64. fold (num_of m e). fold (den_of e). unfold value, B2R.
    destruct s; cbn [sign_text append].
    + rewrite read_neg, R. cbn [option_map fst snd]. f_equal. rewrite Q. unfold round10. rewrite <- round_NE_opp. f_equal.
      unfold F2R, cond_Zopp. cbn [Fnum Fexp]. rewrite opp_IZR. ring.
    + rewrite read_pos by exact S. rewrite R. cbn [option_map fst snd]. f_equal. exact Q.
Qed.
