(** The form of formatted numbers, and ties. *)
From Coq Require Import String Ascii ZArith Reals Lia Lra.
From Flocq Require Import Core BinarySingleNaN.
From Verif Require Import Base ModelArith ModelFloat SpecDouble ModelFmt SpecFmt FmtFacts FmtProp FmtText.
Local Open Scope Z_scope.

Lemma digit_cases d : is_digit d -> d = 0 \/ d = 1 \/ d = 2 \/ d = 3 \/ d = 4 \/ d = 5 \/ d = 6 \/ d = 7 \/ d = 8 \/ d = 9.
Proof. unfold is_digit. lia. Qed.
Lemma digit_char_digit d : is_digit d -> digit_of (digit_char d) = Some d.
Proof. intro H. destruct (digit_cases d H) as [E|[E|[E|[E|[E|[E|[E|[E|[E|E]]]]]]]]]; rewrite E; reflexivity. Qed.
Lemma digit_char_zero d : is_digit d -> digit_char d = "0"%char -> d = 0.
Proof. intros H E. pose proof (digit_char_digit d H) as D. rewrite E in D. injection D as D. symmetry. exact D. Qed.
Lemma all_digits_text ds : Forall is_digit ds -> all_digits (text_of ds).
Proof. induction 1 as [|d ds H _ IH]; [exact I|]. split; [rewrite (digit_char_digit d H); discriminate|exact IH]. Qed.
Lemma text_nonempty ds : ds <> [] -> text_of ds <> EmptyString.
Proof. destruct ds; [contradiction|discriminate]. Qed.
Lemma last_text ds : Forall is_digit ds -> ds <> [] -> last ds 0 <> 0 -> last_char (text_of ds) <> Some "0"%char.
Proof.
  induction 1 as [|d ds H F IH]; [contradiction|]. intros _ L. destruct ds as [|d' ds].
  - simpl in *. intro E. injection E as E. apply L, (digit_char_zero d H E).
  - apply IH; [discriminate|exact L].
Qed.
Lemma first_text d ds : is_digit d -> d <> 0 -> first_char (text_of (d :: ds)) <> Some "0"%char.
Proof. intros H N E. simpl in E. injection E as E. apply N, (digit_char_zero d H E). Qed.

Lemma last_rev (l : list Z) d : last (rev l) d = hd d l.
Proof. destruct l as [|a l]; [reflexivity|]. simpl. apply last_last. Qed.
Lemma strip_last l : strip l <> [] -> last (strip l) 0 <> 0.
Proof.
  unfold strip. rewrite last_rev. induction (rev l) as [|a r IH]; intro H; [contradiction|].
  destruct a; cbn [drop_zeros] in *; [apply IH, H|discriminate|discriminate].
Qed.
Lemma strip_first l d t : l = d :: t -> d <> 0 -> exists t', strip l = d :: t'.
Proof.
  intros -> N. destruct (strip_spec (d :: t)) as [k [E _]]. destruct (strip (d :: t)) as [|a s].
  - simpl in E. unfold zeros in E. destruct (Z.to_nat k); simpl in E; [discriminate|]. injection E as E _. contradiction.
  - injection E as -> _. exists s. reflexivity.
Qed.
Lemma digits_first n : 0 < n -> exists d t, digits n = d :: t /\ is_digit d /\ d <> 0.
Proof.
  intro H. destruct (digits_spec n H) as [F [N [[B _] L]]]. destruct (digits n) as [|d t] eqn:E; [unfold len in L; simpl in L; lia|].
  exists d, t. split; [reflexivity|]. inversion F; subst. split; [assumption|]. intros ->.
  assert (Q : number_of (0 :: t) = number_of t) by reflexivity. rewrite Q in B.
  pose proof (number_bound t H3). unfold len in *. simpl length in B. rewrite Nat2Z.inj_succ in B.
  replace (Z.succ (Z.of_nat (length t)) - 1) with (Z.of_nat (length t)) in B by lia. lia.
Qed.

Lemma last_app_ne (a b : list Z) d : b <> [] -> last (a ++ b) d = last b d.
Proof.
  intro H. induction a as [|x a IH]; [reflexivity|]. simpl. destruct (a ++ b) eqn:E; [|exact IH].
  apply app_eq_nil in E. destruct E as [_ E]. contradiction.
Qed.
Lemma Forall_zeros k : Forall is_digit (zeros k).
Proof. unfold zeros. apply Forall_forall. intros x Hx. apply repeat_spec in Hx. subst. unfold is_digit. lia. Qed.
Lemma Forall_firstn {A} (P : A -> Prop) n l : Forall P l -> Forall P (firstn n l).
Proof. intro H. revert n. induction H; intros [|n]; simpl; constructor; auto. Qed.
Lemma Forall_skipn {A} (P : A -> Prop) n l : Forall P l -> Forall P (skipn n l).
Proof. intro H. revert n. induction H; intros [|n]; simpl; try constructor; auto. Qed.

Definition scientific (p e : Z) : bool := (e + 1 <=? -4) || (p <? e + 1).
Definition tail_of (p e : Z) : string := if scientific p e then exponent_text e else EmptyString.
Definition fraction (l : list Z) : string := match l with [] => EmptyString | _ => String "." (text_of l) end.

Lemma layout_form p e d t : let ds := d :: t in Forall is_digit ds -> d <> 0 -> last ds 0 <> 0 ->
  exists a l, layout_g p e ds = (text_of a ++ fraction l ++ tail_of p e)%string /\ Forall is_digit a /\ a <> [] /\
    (a = [0] \/ hd 0 a <> 0) /\ Forall is_digit l /\ (l = [] \/ last l 0 <> 0) /\ (scientific p e = true -> a = [d]).
Proof.
  intros ds F N L. assert (Fd : is_digit d) by (inversion F; assumption).
  unfold layout_g. fold (scientific p e). unfold tail_of. destruct (scientific p e) eqn:X.
  - exists [d], t. split.
    + unfold ds. destruct t; reflexivity.
    + split; [constructor; [exact Fd|constructor]|]. split; [discriminate|]. split; [right; exact N|].
      split; [inversion F; assumption|]. split; [|intros _; reflexivity].
      destruct t as [|d' t']; [left; reflexivity|right; exact L].
  - destruct (Z.leb_spec (e + 1) 0) as [G|G].
    + exists [0], (zeros (- (e + 1)) ++ ds). split.
      * assert (E : fraction (zeros (- (e + 1)) ++ ds) = String "." (text_of (zeros (- (e + 1)) ++ ds))).
        { destruct (zeros (- (e + 1)) ++ ds) eqn:Q; [|reflexivity]. apply app_eq_nil in Q. destruct Q as [_ Q]. discriminate. }
        rewrite E. cbn [append text_of]. do 2 f_equal. symmetry.
        clear. induction (text_of (zeros (- (e + 1)) ++ ds)) as [|c s IH]; [reflexivity|]. simpl. rewrite IH. reflexivity.
      * split; [constructor; [unfold is_digit; lia|constructor]|]. split; [discriminate|]. split; [left; reflexivity|].
        split; [apply Forall_app; split; [apply Forall_zeros|exact F]|]. split; [|discriminate].
        right. rewrite last_app_ne by discriminate. exact L.
    + destruct (Z.leb_spec (len ds) (e + 1)) as [G'|G'].
      * exists (ds ++ zeros (e + 1 - len ds)), []. split.
        { cbn [fraction append]. clear. induction (text_of (ds ++ zeros (e + 1 - len ds))) as [|c s IH]; [reflexivity|]. simpl. rewrite <- IH. reflexivity. }
        split; [apply Forall_app; split; [exact F|apply Forall_zeros]|]. split; [discriminate|]. split; [right; exact N|].
        split; [constructor|]. split; [left; reflexivity|discriminate].
      * assert (Pn : (0 < Z.to_nat (e + 1) < length ds)%nat) by (unfold len in G'; lia).
        set (k := Z.to_nat (e + 1)) in *. exists (firstn k ds), (skipn k ds).
        assert (Ns : skipn k ds <> []).
        { intro Q. apply (f_equal (@length Z)) in Q. rewrite skipn_length in Q. simpl length in Q. simpl in Pn. lia. }
        split.
        { assert (E : fraction (skipn k ds) = String "." (text_of (skipn k ds))) by (destruct (skipn k ds); [contradiction|reflexivity]).
          rewrite E. f_equal. cbn [append]. f_equal.
          clear. induction (text_of (skipn k ds)) as [|c s IH]; [reflexivity|]. simpl. rewrite <- IH. reflexivity. }
        assert (Fn : exists r, firstn k ds = d :: r) by (destruct k; [lia|]; eexists; reflexivity). destruct Fn as [r Fn].
        split; [apply Forall_firstn, F|]. split; [rewrite Fn; discriminate|]. split; [right; rewrite Fn; exact N|].
        split; [apply Forall_skipn, F|]. split; [|discriminate]. right.
        rewrite <- (last_app_ne (firstn k ds) (skipn k ds) 0 Ns), firstn_skipn. exact L.
Qed.

Lemma exponent_form e : exists c ds, exponent_text e = String "e" (String c ds) /\ all_digits ds /\ (2 <= String.length ds)%nat /\
  ((2 < String.length ds)%nat -> first_char ds <> Some "0"%char) /\ ((e < 0 /\ c = "-"%char) \/ (0 <= e /\ c = "+"%char)).
Proof.
  unfold exponent_text. eexists _, _. split; [reflexivity|]. set (ds := digits (Z.abs e)).
  assert (F : Forall is_digit ds).
  { destruct (Z.eq_dec e 0) as [->|N]; [constructor|]. apply digits_spec. lia. }
  split; [apply all_digits_text, Forall_app; split; [apply Forall_zeros|exact F]|].
  rewrite length_text, app_length. unfold zeros at 1 2. rewrite repeat_length. unfold len. split; [lia|]. split.
  - intro H. assert (Q : (2 < length ds)%nat) by lia.
    replace (zeros (2 - Z.of_nat (length ds))) with (@nil Z).
    2: { unfold zeros. replace (Z.to_nat (2 - Z.of_nat (length ds))) with 0%nat by lia. reflexivity. }
    destruct (Z.eq_dec e 0) as [->|N]; [simpl in Q; lia|]. destruct (digits_first (Z.abs e)) as [d [t [E [D1 D2]]]]; [lia|].
    fold ds in E. rewrite E. apply first_text; assumption.
  - destruct (Z.ltb_spec e 0); [left|right]; split; auto.
Qed.

Lemma dec_bounds p m e : 1 <= p -> 10 ^ (p - 1) <= m < 10 ^ p -> (bpow ten e <= dec m (e + 1 - p) < bpow ten (e + 1))%R.
Proof.
  intros Hp [M1 M2]. apply IZR_le in M1. apply IZR_lt in M2. rewrite pow_bpow in M1, M2 by lia. unfold dec.
  replace (bpow ten e) with (bpow ten (p - 1) * bpow ten (e + 1 - p))%R by (rewrite <- bpow_plus; f_equal; lia).
  replace (bpow ten (e + 1)) with (bpow ten p * bpow ten (e + 1 - p))%R by (rewrite <- bpow_plus; f_equal; lia).
  pose proof (bpow_gt_0 ten (e + 1 - p)). split; [apply Rmult_le_compat_r; lra|apply Rmult_lt_compat_r; lra].
Qed.
Lemma scientific_spec p e V : 1 <= p -> (bpow ten e <= V < bpow ten (e + 1))%R ->
  (scientific p e = false <-> (bpow ten (-4) <= V < bpow ten p)%R).
Proof.
  intros Hp [V1 V2]. unfold scientific. rewrite Bool.orb_false_iff, Z.leb_gt, Z.ltb_ge. split.
  - intros [H1 H2]. split.
    + eapply Rle_trans; [|exact V1]. apply bpow_le. lia.
    + eapply Rlt_le_trans; [exact V2|]. apply bpow_le. lia.
  - intros [H1 H2]. split.
    + apply Z.lt_nge. intro Q. apply (Rlt_irrefl V). eapply Rlt_le_trans; [exact V2|]. eapply Rle_trans; [|exact H1]. apply bpow_le. lia.
    + apply Z.le_ngt. intro Q. apply (Rlt_irrefl V). eapply Rlt_le_trans; [exact H2|]. eapply Rle_trans; [|exact V1]. apply bpow_le. lia.
Qed.

Lemma ratio_shape p a b : 1 <= p -> 0 < a -> 0 < b -> exists A L T, fmt_ratio p a b = (A ++ L ++ T)%string /\
  let V := round10 p (IZR a / IZR b) in
    all_digits A /\ A <> EmptyString /\ (A = "0"%string \/ first_char A <> Some "0"%char) /\
    (L = EmptyString \/ exists l', L = String "." l' /\ all_digits l' /\ l' <> EmptyString /\ last_char l' <> Some "0"%char) /\
    (((bpow ten (-4) <= V < bpow ten p)%R /\ T = EmptyString) \/
     (~ (bpow ten (-4) <= V < bpow ten p)%R /\ String.length A = 1%nat /\ A <> "0"%string /\
      exists c ds, T = String "e" (String c ds) /\ all_digits ds /\ (2 <= String.length ds)%nat /\
        ((2 < String.length ds)%nat -> first_char ds <> Some "0"%char) /\
        (((V < 1)%R /\ c = "-"%char) \/ ((1 <= V)%R /\ c = "+"%char)))).
Proof.
  intros Hp Ha Hb. unfold fmt_ratio. destruct (significant p a b) as [m e] eqn:S.
  destruct (significant_spec p a b m e Hp Ha Hb S) as [M [V _]].
  assert (Hm : 0 < m) by (pose proof (Z.pow_pos_nonneg 10 (p - 1)); lia).
  destruct (strip_ok m Hm) as [F [NE _]]. destruct (digits_first m Hm) as [d [t [E [D1 D2]]]].
  destruct (strip_first _ _ _ E D2) as [t' E']. pose proof (strip_last (digits m) NE) as L. rewrite E' in *.
  destruct (layout_form p e d t' F D2 L) as [A [l [Q1 [Q2 [Q3 [Q4 [Q5 [Q6 Q7]]]]]]]].
  exists (text_of A), (fraction l), (tail_of p e). split; [exact Q1|]. cbn zeta.
  pose proof (dec_bounds p m e Hp M) as B. rewrite V in B. set (W := round10 p (IZR a / IZR b)) in *. clearbody W.
  split; [apply all_digits_text, Q2|]. split; [apply text_nonempty, Q3|]. split.
  { destruct Q4 as [->|Q4]; [left; reflexivity|right]. destruct A as [|d0 A]; [contradiction|]. inversion Q2; subst. apply first_text; assumption. }
  split.
  { destruct l as [|x l]; [left; reflexivity|right]. exists (text_of (x :: l)). split; [reflexivity|]. split; [apply all_digits_text, Q5|].
    split; [discriminate|]. destruct Q6 as [Q6|Q6]; [discriminate|]. apply last_text; [exact Q5|discriminate|exact Q6]. }
  pose proof (scientific_spec p e W Hp B) as X. unfold tail_of. destruct (scientific p e).
  - right. rewrite (Q7 eq_refl). split; [intro Q; apply X in Q; discriminate|]. split; [reflexivity|].
    split. { intro Q. apply D2. apply (digit_char_zero d D1). injection Q as Q. exact Q. }
    destruct (exponent_form e) as [c [ds [K1 [K2 [K3 [K4 K5]]]]]]. exists c, ds. split; [exact K1|]. split; [exact K2|]. split; [exact K3|].
    split; [exact K4|]. destruct K5 as [[K5 ->]|[K5 ->]]; [left|right]; (split; [|reflexivity]).
    + eapply Rlt_le_trans; [apply B|]. change 1%R with (bpow ten 0). apply bpow_le. lia.
    + eapply Rle_trans; [|apply B]. change 1%R with (bpow ten 0). apply bpow_le. lia.
  - left. split; [apply X; reflexivity|reflexivity].
Qed.

Lemma fmt_shape p (x : b64) : 1 <= p -> is_finite x = true -> value x <> 0%R ->
  has_shape p (round10 p (value x)) (fmt_b64 p x).
Proof.
  intros Hp Hx Nz. destruct x as [s|s| |s m e Hb]; try discriminate; [exfalso; apply Nz; reflexivity|].
  destruct (ratio_value m e) as [A [B V]]. destruct (ratio_shape p _ _ Hp A B) as [a [l [t [E H]]]]. cbn zeta in H.
  pose proof (round10_pos p _ _ Hp A B) as Pos. rewrite V in H, Pos.
  unfold fmt_b64. fold (num_of m e). fold (den_of e). rewrite E. exists (sign_text s), a, l, t. split; [reflexivity|].
  set (W := round10 p (IZR (Zpos m) * bpow radix2 e)) in *.
  assert (R : round10 p (value (B754_finite s m e Hb)) = if s then (- W)%R else W).
  { unfold value, B2R, F2R, cond_Zopp. cbn [Fnum Fexp]. destruct s; [|reflexivity]. unfold W, round10. rewrite <- round_NE_opp. f_equal.
    rewrite opp_IZR. ring. }
  rewrite R. assert (Ab : Rabs (if s then (- W)%R else W) = W).
  { destruct s; [rewrite Rabs_Ropp|]; apply Rabs_right; lra. }
  split.
  - destruct s; [right; split; [lra|reflexivity]|left; split; [lra|reflexivity]].
  - rewrite Ab. exact H.
Qed.

Lemma round10_ties p x : 2 <= p -> x <> 0%R -> ties_to_even p x (round10 p x).
Proof.
  intros Hp Nz. assert (Hp' : Prec_gt_0 p) by (unfold Prec_gt_0; lia).
  assert (Ex : Exists_NE ten (FLX_exp p)) by (apply exists_NE_FLX; right; lia).
  assert (N := round_NE_pt ten (FLX_exp p) x). destruct N as [N U].
  assert (Nr : round10 p x <> 0%R).
  { unfold round10. intro Q. apply Nz. apply (eq_0_round_0_FLX ten p ZnearestE x Q). }
  assert (C : exists m e, round10 p x = dec m e /\ 10 ^ (p - 1) <= Z.abs m < 10 ^ p /\
    (forall g, round10 p x = F2R g -> canonical ten (FLX_exp p) g -> Fnum g = m)).
  { assert (G : generic_format ten (FLX_exp p) (round10 p x)) by (apply generic_format_round; [apply FLX_exp_valid; exact Hp'|apply valid_rnd_N]).
    pose proof (canonical_generic_format ten (FLX_exp p) (round10 p x) G) as [g0 [E0 C0]].
    exists (Fnum g0), (Fexp g0). split; [exact E0|]. split.
    - assert (Q := C0). unfold canonical, cexp, FLX_exp in Q. rewrite <- E0 in Q.
      destruct (mag ten (round10 p x)) as [k K]. cbn [mag_val] in Q. specialize (K Nr).
      destruct g0 as [m0 e0]. rewrite E0, <- F2R_Zabs in K. unfold F2R in K. cbn [Fnum Fexp] in K, Q |- *. rewrite Q in K.
      assert (P := bpow_gt_0 ten (k - p)).
      replace (bpow ten (k - 1)) with (bpow ten (p - 1) * bpow ten (k - p))%R in K by (rewrite <- bpow_plus; f_equal; lia).
      replace (bpow ten k) with (bpow ten p * bpow ten (k - p))%R in K by (rewrite <- bpow_plus; f_equal; lia).
      destruct K as [K1 K2]. apply Rmult_le_reg_r in K1; [|exact P]. apply Rmult_lt_reg_r in K2; [|exact P].
      rewrite <- pow_bpow in K1, K2 by lia. apply le_IZR in K1. apply lt_IZR in K2. split; assumption.
    - intros g E C1. rewrite (canonical_unique ten (FLX_exp p) g g0); auto. congruence. }
  destruct C as [m [e [E [B C]]]]. exists m, e. split; [exact E|]. split; [exact B|]. intros w W D T.
  destruct U as [[g [G1 [G2 G3]]]|U].
  - rewrite <- (C g G1 G2). exact G3.
  - exfalso. apply D. apply U. split.
    + destruct W as [m' [e' [M' ->]]]. apply generic_format_FLX. exists (Float ten m' e'); [reflexivity|exact M'].
    + intros y Y. rewrite T. apply N, Y.
Qed.
