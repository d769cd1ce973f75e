(** Doubles and the real numbers they stand for. *)
From Coq Require Import Reals Lra.
From Flocq Require Import Core BinarySingleNaN Relative.
From Verif Require Import Base ModelArith ModelFloat SpecMetric VPProp.
Open Scope R_scope.

Notation bexp := (FLT_exp (-1074) 53).
Notation brnd := (round radix2 (FLT_exp (-1074) 53) ZnearestE).
Notation rv := (@B2R 53 1024).
Notation fin := (@is_finite 53 1024).
Notation ovf := (bpow radix2 1024).

#[global] Instance bexp_valid : Valid_exp bexp.
Proof. apply FLT_exp_valid. reflexivity. Qed.

Lemma brnd_le x y : x <= y -> brnd x <= brnd y.
Proof. apply round_le; [apply bexp_valid|apply valid_rnd_N]. Qed.
Lemma brnd_opp x : brnd (- x) = - brnd x.
Proof. apply round_NE_opp. Qed.
Lemma brnd_0 : brnd 0 = 0.
Proof. apply round_0. apply valid_rnd_N. Qed.
Lemma brnd_abs x : brnd (Rabs x) = Rabs (brnd x).
Proof. apply round_NE_abs. apply bexp_valid. Qed.
Lemma brnd_nonneg x : 0 <= x -> 0 <= brnd x.
Proof. intro H. rewrite <- brnd_0. apply brnd_le, H. Qed.
Lemma brnd_id (x : b64) : brnd (rv x) = rv x.
Proof. apply round_generic; [apply valid_rnd_N|]. apply generic_format_B2R. Qed.
Lemma brnd_rounding : rounding brnd.
Proof. split; [exact brnd_le|exact brnd_opp]. Qed.
Lemma rv_lt_ovf (x : b64) : Rabs (rv x) < ovf.
Proof. apply abs_B2R_lt_emax. Qed.

(** Operations whose rounded result does not overflow. *)
Lemma b_minus_val a b : fin a = true -> fin b = true -> Rabs (brnd (rv a - rv b)) < ovf ->
  rv (b_minus a b) = brnd (rv a - rv b) /\ fin (b_minus a b) = true.
Proof.
  intros Ha Hb H. pose proof (Bminus_correct 53 1024 prec53 emax1024 mode_NE a b Ha Hb) as C.
  rewrite Rlt_bool_true in C by exact H. destruct C as [C1 [C2 _]]. split; [exact C1|exact C2].
Qed.
Lemma b_plus_val a b : fin a = true -> fin b = true -> Rabs (brnd (rv a + rv b)) < ovf ->
  rv (b_plus a b) = brnd (rv a + rv b) /\ fin (b_plus a b) = true.
Proof.
  intros Ha Hb H. pose proof (Bplus_correct 53 1024 prec53 emax1024 mode_NE a b Ha Hb) as C.
  rewrite Rlt_bool_true in C by exact H. destruct C as [C1 [C2 _]]. split; [exact C1|exact C2].
Qed.
Lemma b_mult_val a b : fin a = true -> fin b = true -> Rabs (brnd (rv a * rv b)) < ovf ->
  rv (b_mult a b) = brnd (rv a * rv b) /\ fin (b_mult a b) = true.
Proof.
  intros Ha Hb H. pose proof (Bmult_correct 53 1024 prec53 emax1024 mode_NE a b) as C.
  rewrite Rlt_bool_true in C by exact H. destruct C as [C1 [C2 _]]. split; [exact C1|].
  rewrite Ha, Hb in C2. exact C2.
Qed.
Lemma b_div_val a b : fin a = true -> rv b <> 0 -> Rabs (brnd (rv a / rv b)) < ovf ->
  rv (b_div a b) = brnd (rv a / rv b) /\ fin (b_div a b) = true.
Proof.
  intros Ha Hb H. pose proof (Bdiv_correct 53 1024 prec53 emax1024 mode_NE a b Hb) as C.
  rewrite Rlt_bool_true in C by exact H. destruct C as [C1 [C2 _]]. split; [exact C1|].
  rewrite Ha in C2. exact C2.
Qed.

(** A finite result of an operation on finite numbers is the rounded one. *)
Lemma overflow_inf (x : b64) s : B2SF x = binary_overflow 53 1024 mode_NE s -> fin x = false.
Proof. intro H. destruct x; try reflexivity; discriminate. Qed.

Lemma b_minus_fin a b : fin a = true -> fin b = true -> fin (b_minus a b) = true ->
  rv (b_minus a b) = brnd (rv a - rv b).
Proof.
  intros Ha Hb H. pose proof (Bminus_correct 53 1024 prec53 emax1024 mode_NE a b Ha Hb) as C.
  destruct (Rlt_bool _ _) in C; [apply C|]. destruct C as [C _]. apply overflow_inf in C.
  unfold b_minus in H. rewrite C in H. discriminate.
Qed.
Lemma b_plus_fin a b : fin a = true -> fin b = true -> fin (b_plus a b) = true ->
  rv (b_plus a b) = brnd (rv a + rv b).
Proof.
  intros Ha Hb H. pose proof (Bplus_correct 53 1024 prec53 emax1024 mode_NE a b Ha Hb) as C.
  destruct (Rlt_bool _ _) in C; [apply C|]. destruct C as [C _]. apply overflow_inf in C.
  unfold b_plus in H. rewrite C in H. discriminate.
Qed.

Lemma b_abs_val a : rv (b_abs a) = Rabs (rv a) /\ fin (b_abs a) = fin a.
Proof. split; [apply B2R_Babs|apply is_finite_Babs]. Qed.

Lemma b_le_val a b : fin a = true -> fin b = true -> b_le a b = Rleb (rv a) (rv b).
Proof.
  intros Ha Hb. unfold b_le. rewrite Bleb_correct by assumption.
  unfold Rleb. case Rle_bool_spec; intro H; destruct (Rle_dec (rv a) (rv b)); try reflexivity; lra.
Qed.
Lemma b_lt_val a b : fin a = true -> fin b = true -> b_lt a b = Rltb (rv a) (rv b).
Proof.
  intros Ha Hb. unfold b_lt. rewrite Bltb_correct by assumption.
  unfold Rltb. case Rlt_bool_spec; intro H; destruct (Rlt_dec (rv a) (rv b)); try reflexivity; lra.
Qed.

(** The relation between the runs: finite, not negative. *)
Definition is_val (a : b64) (r : R) : Prop := fin a = true /\ 0 <= r /\ r = rv a.

Lemma gap_val a b : fin a = true -> fin b = true -> 0 <= rv a -> 0 <= rv b ->
  fin (b_gap a b) = true /\ rv (b_gap a b) = rgap brnd (rv a) (rv b).
Proof.
  intros Fa Fb Ha Hb.
  assert (L : Rabs (brnd (rv a - rv b)) < ovf).
  { rewrite <- brnd_abs. assert (M : Rabs (rv a - rv b) <= Rmax (rv a) (rv b)).
    { apply Rabs_le. pose proof (Rmax_l (rv a) (rv b)). pose proof (Rmax_r (rv a) (rv b)). lra. }
    apply brnd_le in M. pose proof (brnd_nonneg _ (Rabs_pos (rv a - rv b))).
    eapply Rle_lt_trans; [exact M|]. apply Rmax_case; rewrite brnd_id.
    - eapply Rle_lt_trans; [apply Rle_abs|apply rv_lt_ovf].
    - eapply Rle_lt_trans; [apply Rle_abs|apply rv_lt_ovf]. }
  destruct (b_minus_val a b Fa Fb L) as [V F]. unfold b_gap. destruct (b_abs_val (b_minus a b)) as [V2 F2].
  split; [congruence|]. rewrite V2, V. reflexivity.
Qed.

Lemma is_val_gap a r b s : is_val a r -> is_val b s -> is_val (b_gap a b) (rgap brnd r s).
Proof.
  intros [Fa [Ha ->]] [Fb [Hb ->]]. destruct (gap_val a b Fa Fb Ha Hb) as [F V].
  split; [exact F|]. split; [apply Rabs_pos|]. symmetry. exact V.
Qed.
Lemma is_val_le a r b s : is_val a r -> is_val b s -> b_le a b = Rleb r s.
Proof. intros [Fa [Ha ->]] [Fb [Hb ->]]. apply b_le_val; auto. Qed.
Lemma is_val_lt a r b s : is_val a r -> is_val b s -> b_lt a b = Rltb r s.
Proof. intros [Fa [Ha ->]] [Fb [Hb ->]]. apply b_lt_val; auto. Qed.

Lemma is_val_zero : is_val b_zero 0.
Proof. split; [reflexivity|]. split; [lra|reflexivity]. Qed.
Lemma zero_BA : zero BA = b_zero. Proof. reflexivity. Qed.
