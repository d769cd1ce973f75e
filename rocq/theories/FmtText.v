(** Formatted numbers as texts: canonical, short, and free of the characters that separate fields. *)
From Coq Require Import String Ascii ZArith Reals Lia Lra.
From Flocq Require Import Core BinarySingleNaN.
From Verif Require Import Base ModelArith ModelFloat SpecDouble ModelFmt SpecFmt FmtFacts FmtProp.
Local Open Scope Z_scope.

(** *** Equal digits give equal texts *)
Lemma dec_unique p m e m' e' : 1 <= p -> 10 ^ (p - 1) <= m < 10 ^ p -> 10 ^ (p - 1) <= m' < 10 ^ p ->
  dec m e = dec m' e' -> m = m' /\ e = e'.
Proof.
  intros Hp [M1 M2] [N1 N2] E. unfold dec in E. apply IZR_le in M1, N1. apply IZR_lt in M2, N2. rewrite pow_bpow in M1, M2, N1, N2 by lia.
  pose proof (bpow_gt_0 ten e) as P. pose proof (bpow_gt_0 ten e') as P'.
  assert (W : forall m e m' e', (bpow ten (p - 1) <= IZR m)%R -> (IZR m' < bpow ten p)%R -> (IZR m * bpow ten e = IZR m' * bpow ten e')%R -> e <= e').
  { clear. intros m e m' e' M N E. pose proof (bpow_gt_0 ten e). pose proof (bpow_gt_0 ten e').
    assert (L : (bpow ten (p - 1 + e) < bpow ten (p + e'))%R).
    { rewrite !bpow_plus. apply Rle_lt_trans with (IZR m * bpow ten e)%R; [apply Rmult_le_compat_r; lra|].
      rewrite E. apply Rmult_lt_compat_r; lra. }
    apply lt_bpow in L. lia. }
  assert (e = e') by (pose proof (W m e m' e' M1 N2 E); pose proof (W m' e' m e N1 M2 (eq_sym E)); lia). subst e'.
  split; [|reflexivity]. apply eq_IZR. apply (Rmult_eq_reg_r (bpow ten e)); [exact E|lra].
Qed.
Lemma fmt_ratio_same p a b a' b' : 1 <= p -> 0 < a -> 0 < b -> 0 < a' -> 0 < b' ->
  round10 p (IZR a / IZR b) = round10 p (IZR a' / IZR b') -> fmt_ratio p a b = fmt_ratio p a' b'.
Proof.
  intros Hp A B A' B' E. unfold fmt_ratio. destruct (significant p a b) as [m e] eqn:S. destruct (significant p a' b') as [m' e'] eqn:S'.
  destruct (significant_spec p a b m e Hp A B S) as [M [V _]]. destruct (significant_spec p a' b' m' e' Hp A' B' S') as [M' [V' _]].
  rewrite <- V, <- V' in E. destruct (dec_unique p _ _ _ _ Hp M M' E) as [-> Q]. replace e' with e by lia. reflexivity.
Qed.
Lemma round10_pos p a b : 1 <= p -> 0 < a -> 0 < b -> (0 < round10 p (IZR a / IZR b))%R.
Proof.
  intros Hp A B. destruct (significant p a b) as [m e] eqn:S. destruct (significant_spec p a b m e Hp A B S) as [M [V _]].
  rewrite <- V. unfold dec. apply Rmult_lt_0_compat; [apply IZR_lt; pose proof (Z.pow_pos_nonneg 10 (p - 1)); lia|apply bpow_gt_0].
Qed.
Lemma fmt_same p (x y : b64) : 1 <= p -> is_finite x = true -> is_finite y = true -> Bsign x = Bsign y ->
  round10 p (value x) = round10 p (value y) -> fmt_b64 p x = fmt_b64 p y.
Proof.
  intros Hp X Y S E.
  assert (V : forall s m e Hb, round10 p (value (B754_finite s m e Hb : b64)) =
     (if s then - round10 p (IZR (num_of m e) / IZR (den_of e)) else round10 p (IZR (num_of m e) / IZR (den_of e)))%R).
  { intros s m e Hb. destruct (ratio_value m e) as [_ [_ ->]]. unfold value, B2R, F2R, round10. cbn [Fnum Fexp]. destruct s; cbn [cond_Zopp].
    - rewrite <- round_NE_opp. f_equal. rewrite opp_IZR. ring.
    - reflexivity. }
  assert (V0 : forall s, round10 p (value (B754_zero s : b64)) = 0%R) by (intro s; unfold round10, value, B2R; apply round_0, valid_rnd_N).
  destruct x as [s|s| |s m e Hb], y as [s'|s'| |s' m' e' Hb']; try discriminate; simpl in S; subst s'.
  - reflexivity.
  - exfalso. rewrite V0, V in E. destruct (ratio_value m' e') as [A [B _]]. pose proof (round10_pos p _ _ Hp A B). destruct s; lra.
  - exfalso. rewrite V0, V in E. destruct (ratio_value m e) as [A [B _]]. pose proof (round10_pos p _ _ Hp A B). destruct s; lra.
  - rewrite !V in E. destruct (ratio_value m e) as [A [B _]], (ratio_value m' e') as [A' [B' _]].
    cbn [fmt_b64]. fold (num_of m e). fold (den_of e). fold (num_of m' e'). fold (den_of e'). f_equal. apply fmt_ratio_same; auto. destruct s; lra.
Qed.

(** *** Length *)
Lemma length_append s t : String.length (s ++ t) = (String.length s + String.length t)%nat.
Proof. induction s as [|c s IH]; [reflexivity|]. simpl. rewrite IH. reflexivity. Qed.
Lemma length_text ds : String.length (text_of ds) = length ds.
Proof. induction ds as [|d ds IH]; [reflexivity|]. simpl. rewrite IH. reflexivity. Qed.
Lemma length_exponent e : -1000 < e < 1000 -> (String.length (exponent_text e) <= 5)%nat.
Proof.
  intro H. unfold exponent_text. cbn [String.length]. rewrite length_text, app_length. unfold zeros. rewrite repeat_length.
  assert (L : (length (digits (Z.abs e)) <= 3)%nat).
  { destruct (Z.eq_dec e 0) as [->|N]; [simpl; lia|]. destruct (digits_spec (Z.abs e) ltac:(lia)) as [_ [_ [[B _] _]]].
    destruct (Z_le_gt_dec (len (digits (Z.abs e))) 3) as [L|L]; [unfold len in L; lia|]. exfalso.
    assert (10 ^ 3 <= 10 ^ (len (digits (Z.abs e)) - 1)) by (apply Z.pow_le_mono_r; lia). change (10 ^ 3) with 1000 in *. lia. }
  unfold len. lia.
Qed.
Lemma length_layout p e ds : -1000 < e < 1000 -> ds <> [] -> len ds <= p -> (Z.of_nat (String.length (layout_g p e ds)) <= p + 6).
Proof.
  intros He NE L. unfold len in *. pose proof (length_exponent e He) as X. unfold layout_g.
  destruct (Z.leb_spec (e + 1) (-4)) as [G|G]; cbn [orb]; [|destruct (Z.ltb_spec p (e + 1)) as [G'|G']].
  - destruct ds as [|d [|d2 l]]; [contradiction| |]; rewrite ?length_append, !length_text; cbn [append String.length length] in *; rewrite ?length_append, ?length_text; lia.
  - destruct ds as [|d [|d2 l]]; [contradiction| |]; rewrite ?length_append, !length_text; cbn [append String.length length] in *; rewrite ?length_append, ?length_text; lia.
  - destruct (Z.leb_spec (e + 1) 0).
    + rewrite length_append, length_text. cbn [append String.length length]. rewrite length_text, app_length. unfold zeros. rewrite repeat_length. lia.
    + unfold len. destruct (Z.leb_spec (Z.of_nat (length ds)) (e + 1)).
      * rewrite length_text, app_length. unfold zeros. rewrite repeat_length. lia.
      * rewrite length_append, length_text. cbn [append String.length]. rewrite length_text, skipn_length, firstn_length. lia.
Qed.
Lemma fmt_ratio_length p a b : 1 <= p -> 0 < a -> 0 < b -> -990 < exponent a b < 990 ->
  Z.of_nat (String.length (fmt_ratio p a b)) <= p + 6.
Proof.
  intros Hp A B E. unfold fmt_ratio. destruct (significant p a b) as [m e] eqn:S.
  destruct (significant_spec p a b m e Hp A B S) as [[M1 M2] [_ X]].
  assert (Hm : 0 < m) by (pose proof (Z.pow_pos_nonneg 10 (p - 1)); lia).
  destruct (strip_ok m Hm) as [F [NE [L _]]]. apply length_layout; [lia|exact NE|].
  destruct (digits_spec m Hm) as [_ [_ [[D1 D2] D3]]].
  destruct (Z_le_gt_dec (len (digits m)) p) as [Q|Q]; [lia|]. exfalso.
  assert (10 ^ p <= 10 ^ (len (digits m) - 1)) by (apply Z.pow_le_mono_r; lia). lia.
Qed.
Lemma fmt_length p (x : b64) : 1 <= p -> Z.of_nat (String.length (fmt_b64 p x)) <= p + 7.
Proof.
  intro Hp. destruct x as [s|s| |s m e Hb]; [destruct s; simpl; lia|destruct s; simpl; lia|simpl; lia|].
  cbn [fmt_b64]. rewrite length_append. fold (num_of m e). fold (den_of e). destruct (ratio_value m e) as [A [B V]].
  assert (S : (String.length (sign_text s) <= 1)%nat) by (destruct s; simpl; lia).
  enough (-990 < exponent (num_of m e) (den_of e) < 990) by (pose proof (fmt_ratio_length p _ _ Hp A B H); lia).
  pose proof (exponent_spec _ _ A B) as [X1 X2]. rewrite V in X1, X2.
  pose proof (bounded_lt_emax 53 1024 m e Hb) as U. pose proof (bounded_ge_emin 53 1024 m e Hb) as W.
  unfold F2R in U, W. cbn [Fnum Fexp] in U, W. change (SpecFloat.emin 53 1024) with (-1074) in W.
  assert (T1 : (bpow radix2 1024 <= bpow ten 400)%R).
  { rewrite <- (IZR_Zpower radix2), <- (IZR_Zpower ten) by lia. apply IZR_le. vm_compute. discriminate. }
  assert (T2 : (bpow ten (-400) <= bpow radix2 (-1074))%R).
  { change (-400) with (- (400)). change (-1074) with (- (1074)). rewrite !bpow_opp. apply Rinv_le; [apply bpow_gt_0|].
    rewrite <- (IZR_Zpower radix2), <- (IZR_Zpower ten) by lia. apply IZR_le. vm_compute. discriminate. }
  assert (Y1 : (bpow ten (exponent (num_of m e) (den_of e)) < bpow ten 400)%R) by lra.
  assert (Y2 : (bpow ten (-400) < bpow ten (exponent (num_of m e) (den_of e) + 1))%R) by lra.
  apply lt_bpow in Y1. apply lt_bpow in Y2. lia.
Qed.

(** *** Characters *)
Fixpoint free_of (c : ascii) (s : string) : Prop :=
  match s with EmptyString => True | String a s' => a <> c /\ free_of c s' end.
Lemma free_append c s t : free_of c s -> free_of c t -> free_of c (s ++ t).
Proof. induction s as [|a s IH]; simpl; [auto|]. intros [H K] T. auto. Qed.
Definition separator (c : ascii) : Prop := c = "<"%char \/ c = ascii_of_nat 10.
Lemma free_text c ds : separator c -> Forall is_digit ds -> free_of c (text_of ds).
Proof.
  intros S. induction 1 as [|d ds H _ IH]; [exact I|]. split; [|exact IH]. clear IH. unfold is_digit in H.
  assert (C : d = 0 \/ d = 1 \/ d = 2 \/ d = 3 \/ d = 4 \/ d = 5 \/ d = 6 \/ d = 7 \/ d = 8 \/ d = 9) by lia.
  repeat (destruct C as [C|C]; [subst d; destruct S as [S|S]; subst c; discriminate|]). subst d; destruct S as [S|S]; subst c; discriminate.
Qed.
Lemma free_char c a s : separator c -> (a = "<"%char -> False) -> (a = ascii_of_nat 10 -> False) -> free_of c s -> free_of c (String a s).
Proof. intros S H K F. split; [|exact F]. intro E. destruct S as [S|S]; subst; auto. Qed.
Lemma free_exponent c e : separator c -> free_of c (exponent_text e).
Proof.
  intro S. unfold exponent_text. apply free_char; [exact S|discriminate|discriminate|]. apply free_char; [exact S| | |].
  - destruct (e <? 0); discriminate.
  - destruct (e <? 0); discriminate.
  - apply free_text; [exact S|]. destruct (Z.eq_dec e 0) as [->|N]; [simpl; repeat constructor; unfold is_digit; lia|].
    apply Forall_app. split; [apply zeros_digits|apply digits_spec; lia].
Qed.
Lemma free_layout c p e ds : separator c -> Forall is_digit ds -> free_of c (layout_g p e ds).
Proof.
  intros S F. unfold layout_g.
  assert (T : forall l s, Forall is_digit l -> free_of c s -> free_of c (text_of l ++ s)) by (intros; apply free_append; [apply free_text; assumption|assumption]).
  assert (P : forall s, free_of c s -> free_of c (String "." s)) by (intros s Q; apply free_char; [exact S|discriminate|discriminate|exact Q]).
  destruct ((e + 1 <=? -4) || (p <? e + 1)).
  - destruct ds as [|d [|d2 l]]; [exact I| |]; inversion F; subst.
    + apply T; [exact F|apply free_exponent, S].
    + apply T; [constructor; [assumption|constructor]|]. apply P. apply T; [assumption|apply free_exponent, S].
  - destruct (e + 1 <=? 0).
    + apply T; [repeat constructor; unfold is_digit; lia|]. apply P. apply free_text; [exact S|]. apply Forall_app. split; [apply zeros_digits|exact F].
    + destruct (len ds <=? e + 1).
      * apply free_text; [exact S|]. apply Forall_app. split; [exact F|apply zeros_digits].
      * destruct (Forall_firstn_skipn is_digit (Z.to_nat (e + 1)) ds F) as [F1 F2]. apply T; [exact F1|]. apply P. apply free_text; assumption.
Qed.
Lemma free_sign c s : separator c -> free_of c (sign_text s).
Proof. intro S. destruct s; [|exact I]. apply free_char; [exact S|discriminate|discriminate|exact I]. Qed.
Lemma free_fmt c p (x : b64) : 1 <= p -> separator c -> free_of c (fmt_b64 p x).
Proof.
  intros Hp S. destruct x as [s|s| |s m e Hb]; cbn [fmt_b64].
  - apply free_append; [apply free_sign, S|]. destruct S; subst; simpl; repeat split; discriminate.
  - apply free_append; [apply free_sign, S|]. destruct S; subst; simpl; repeat split; discriminate.
  - destruct S; subst; simpl; repeat split; discriminate.
  - apply free_append; [apply free_sign, S|]. fold (num_of m e). fold (den_of e). destruct (ratio_value m e) as [A [B _]].
    unfold fmt_ratio. destruct (significant p _ _) as [k x] eqn:Q. destruct (significant_spec p _ _ k x Hp A B Q) as [[M _] _].
    apply free_layout; [exact S|]. apply strip_ok. pose proof (Z.pow_pos_nonneg 10 (p - 1)). lia.
Qed.
Lemma free_int c n : separator c -> free_of c (str_int n).
Proof.
  intro S. unfold str_int. apply free_append; [apply free_sign, S|]. destruct (Z.eqb_spec n 0).
  - destruct S; subst; simpl; repeat split; discriminate.
  - apply free_text; [exact S|]. apply digits_spec. lia.
Qed.

Lemma split_at c s : forall s' r r', free_of c s -> free_of c s' ->
  (s ++ String c r)%string = (s' ++ String c r')%string -> s = s' /\ r = r'.
Proof.
  induction s as [|a s IH]; intros [|a' s'] r r' F F' E; simpl in *.
  - injection E as E. auto.
  - injection E as E1 E2. destruct F' as [F' _]. congruence.
  - injection E as E1 E2. destruct F as [F _]. congruence.
  - injection E as E1 E2. destruct F as [_ F], F' as [_ F']. destruct (IH _ _ _ F F' E2) as [-> ->]. subst. auto.
Qed.

Lemma int_read n : read_decimal (str_int n) = Some (IZR n).
Proof.
  unfold str_int. destruct (Z.eqb_spec n 0) as [->|N].
  - transitivity (Some (dec 0 0)); [reflexivity|]. f_equal. unfold dec. apply Rmult_0_l.
  - destruct (digits_spec (Z.abs n) ltac:(lia)) as [F [V [_ L]]].
    assert (R : read_unsigned (text_of (digits (Z.abs n))) = Some (Z.abs n, 0)).
    { unfold read_unsigned. rewrite <- (append_nil_r (text_of _)). rewrite read_fraction_int; [|exact F| |exact I|intros r' Q; discriminate Q].
      - cbn [read_exponent]. rewrite app_nil_r, V. reflexivity.
      - intro Q. rewrite Q in L. unfold len in L. simpl in L. lia. }
    assert (D : dec (Z.abs n) 0 = IZR (Z.abs n)) by (unfold dec; simpl; ring).
    destruct (Z.ltb_spec n 0); cbn [sign_text append].
    + rewrite read_neg, R. cbn [option_map fst snd]. rewrite D, Z.abs_neq, opp_IZR by lia. f_equal. ring.
    + rewrite read_pos, R. { cbn [option_map fst snd]. rewrite D, Z.abs_eq by lia. reflexivity. }
      intro s'. destruct (digits (Z.abs n)) as [|d ds]; [discriminate|]. inversion F; subst. rewrite <- (append_nil_r (text_of _)). apply text_no_sign. assumption.
Qed.
Lemma str_int_inj n n' : str_int n = str_int n' -> n = n'.
Proof. intro E. pose proof (int_read n) as H. rewrite E, int_read in H. injection H as H. symmetry. apply eq_IZR, H. Qed.

Lemma plotly_label_inj c n s c' n' s' : plotly_label (c, n, s) = plotly_label (c', n', s') ->
  fmt_b64 3 c = fmt_b64 3 c' /\ n = n' /\ fmt_int 5 (Z.of_nat s) = fmt_int 5 (Z.of_nat s').
Proof.
  unfold plotly_label. cbn [append]. intro E. injection E as E.
  apply split_at in E; [|apply free_fmt; [lia|left; reflexivity]|apply free_fmt; [lia|left; reflexivity]]. destruct E as [E1 E].
  injection E as E. apply split_at in E; [|apply free_int; left; reflexivity|apply free_int; left; reflexivity]. destruct E as [E2 E].
  injection E as E. split; [exact E1|]. split; [apply str_int_inj, E2|exact E].
Qed.
Lemma pyvis_label_inj c n s c' n' s' : pyvis_label (c, n, s) = pyvis_label (c', n', s') ->
  fmt_b64 3 c = fmt_b64 3 c' /\ n = n' /\ s = s'.
Proof.
  unfold pyvis_label, newline. cbn [append]. intro E. injection E as E.
  apply split_at in E; [|apply free_fmt; [lia|right; reflexivity]|apply free_fmt; [lia|right; reflexivity]]. destruct E as [E1 E].
  injection E as E. apply split_at in E; [|apply free_int; right; reflexivity|apply free_int; right; reflexivity]. destruct E as [E2 E].
  injection E as E. split; [exact E1|]. split; [apply str_int_inj, E2|apply str_int_inj, E].
Qed.
