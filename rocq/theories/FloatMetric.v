(** The named distances computed in double precision. *)
From Coq Require Import Reals Lra Psatz.
From Flocq Require Import Core BinarySingleNaN Relative Plus_error Div_sqrt_error.
From Verif Require Import Base ModelArith ModelMetrics ModelFloat FloatFacts SpecDouble SpecMetric VPProp.
Open Scope R_scope.

(** *** Representable multiples of powers of two *)
Lemma format_int_pow i k : (Z.abs i < 2 ^ 53)%Z -> (-1074 <= k)%Z -> generic_format radix2 bexp (IZR i * bpow radix2 k).
Proof.
  intros Hi Hk. apply generic_format_FLT. exists (Float radix2 i k); simpl; auto.
Qed.
Lemma brnd_int_pow i k : (Z.abs i < 2 ^ 53)%Z -> (-1074 <= k)%Z -> brnd (IZR i * bpow radix2 k) = IZR i * bpow radix2 k.
Proof. intros. apply round_generic; [apply valid_rnd_N|]. apply format_int_pow; auto. Qed.
Lemma brnd_pow k : (-1074 <= k)%Z -> brnd (bpow radix2 k) = bpow radix2 k.
Proof. intro H. rewrite <- (Rmult_1_l (bpow radix2 k)). apply (brnd_int_pow 1); auto. simpl. lia. Qed.
Lemma brnd_abs_pow x k : (-1074 <= k)%Z -> Rabs x <= bpow radix2 k -> Rabs (brnd x) <= bpow radix2 k.
Proof. intros Hk H. rewrite <- brnd_abs, <- (brnd_pow k Hk). apply brnd_le, H. Qed.

(** *** Vectors of finite numbers of bounded size *)

Lemma small_minus k a b : (-1074 <= k <= 1000)%Z -> small k a -> small k b ->
  small (k + 1) (b_minus a b) /\ value (b_minus a b) = brnd (value a - value b).
Proof.
  intros Hk [Fa Ha] [Fb Hb].
  assert (L : Rabs (value a - value b) <= bpow radix2 (k + 1)).
  { rewrite bpow_plus_1. change (IZR radix2) with 2. pose proof (Rabs_triang (value a) (- value b)).
    rewrite Rabs_Ropp in H. unfold Rminus. lra. }
  apply brnd_abs_pow in L; [|lia].
  destruct (b_minus_val a b Fa Fb) as [V F].
  { eapply Rle_lt_trans; [exact L|]. apply bpow_lt. lia. }
  split; [split; [exact F|]|exact V]. unfold value. rewrite V. exact L.
Qed.

Lemma abs_n_val a : finite a -> finite (abs_n BA a) /\ value (abs_n BA a) = Rabs (value a).
Proof.
  intro F. unfold abs_n. change (le_b BA) with b_le. rewrite zero_BA.
  rewrite b_le_val; [|reflexivity|exact F]. change (rv b_zero) with 0. unfold Rleb.
  destruct (Rle_dec 0 (rv a)) as [H|H].
  - split; [exact F|]. symmetry. apply Rabs_right. apply Rle_ge, H.
  - change (sub BA) with b_minus. assert (E : brnd (rv b_zero - rv a) = - rv a).
    { change (rv b_zero) with 0. rewrite Rminus_0_l, brnd_opp, brnd_id. reflexivity. }
    destruct (b_minus_val b_zero a eq_refl F) as [V Fm].
    { rewrite E, Rabs_Ropp. apply rv_lt_ovf. }
    split; [exact Fm|]. unfold value. rewrite V, E, Rabs_left by lra. reflexivity.
Qed.

Lemma small_mult k a b : (-1074 <= 2 * k <= 1000 * 2)%Z -> (2 * k <= 1003)%Z -> small k a -> small k b ->
  small (2 * k) (b_mult a b) /\ value (b_mult a b) = brnd (value a * value b).
Proof.
  intros Hk Hk2 [Fa Ha] [Fb Hb].
  assert (L : Rabs (value a * value b) <= bpow radix2 (2 * k)).
  { rewrite Rabs_mult. replace (2 * k)%Z with (k + k)%Z by lia. rewrite bpow_plus.
    apply Rmult_le_compat; auto using Rabs_pos. }
  apply brnd_abs_pow in L; [|lia].
  destruct (b_mult_val a b Fa Fb) as [V F].
  { eapply Rle_lt_trans; [exact L|]. apply bpow_lt. lia. }
  split; [split; [exact F|]|exact V]. unfold value. rewrite V. exact L.
Qed.

(** *** Sums, left to right *)
Definition rsum (l : list R) : R := fold_left (fun s a => brnd (s + a)) l 0.

Lemma sum_val k l : (-1074 <= k <= 1003)%Z -> forall i s,
  (0 <= i)%Z -> (i + Z.of_nat (length l) <= 2 ^ 20)%Z ->
  finite s -> 0 <= value s <= IZR i * bpow radix2 k ->
  Forall (fun a => small k a /\ 0 <= value a) l ->
  finite (fold_left b_plus l s) /\
  value (fold_left b_plus l s) = fold_left (fun s a => brnd (s + a)) (map value l) (value s) /\
  0 <= value (fold_left b_plus l s) <= IZR (i + Z.of_nat (length l)) * bpow radix2 k.
Proof.
  intros Hk. induction l as [|a l IH]; intros i s Hi Hl Fs Hs HF.
  - simpl. rewrite Z.add_0_r. auto.
  - inversion HF as [|b m [[Fa Ha] Ha0] HF']; subst. rewrite Rabs_right in Ha by lra.
    assert (B : 0 <= value s + value a <= IZR (i + 1) * bpow radix2 k).
    { rewrite plus_IZR. split; [lra|]. rewrite Rmult_plus_distr_r, Rmult_1_l. lra. }
    assert (B2 : 0 <= brnd (value s + value a) <= IZR (i + 1) * bpow radix2 k).
    { split; [apply brnd_nonneg; lra|]. simpl length in Hl.
      rewrite <- (brnd_int_pow (i + 1) k) by lia. apply brnd_le. lra. }
    assert (O : IZR (i + 1) * bpow radix2 k < ovf).
    { simpl length in Hl. apply Rle_lt_trans with (bpow radix2 20 * bpow radix2 k).
      - apply Rmult_le_compat_r; [apply bpow_ge_0|]. change (bpow radix2 20) with (IZR (2 ^ 20)). apply IZR_le. lia.
      - rewrite <- bpow_plus. apply bpow_lt. lia. }
    destruct (b_plus_val s a Fs Fa) as [V F].
    { fold (value s) (value a). rewrite Rabs_right; lra. }
    simpl fold_left. destruct (IH (i + 1)%Z (b_plus s a)) as [I1 [I2 I3]]; auto.
    + lia.
    + simpl length in Hl. lia.
    + unfold value at 1 2. rewrite V. exact B2.
    + split; [exact I1|]. split.
      * rewrite I2. unfold value at 2. rewrite V. reflexivity.
      * replace (i + Z.of_nat (length (a :: l)))%Z with (i + 1 + Z.of_nat (length l))%Z by (simpl length; lia). exact I3.
Qed.

Lemma sum_n_val k l : (-1074 <= k <= 1003)%Z -> (Z.of_nat (length l) <= 2 ^ 20)%Z ->
  Forall (fun a => small k a /\ 0 <= value a) l ->
  magnitude (sum_n BA l) /\ value (sum_n BA l) = rsum (map value l).
Proof.
  intros Hk Hl HF. destruct (sum_val k l Hk 0%Z b_zero) as [H1 [H2 H3]]; auto; try lia.
  - reflexivity.
  - change (value b_zero) with 0. lra.
  - unfold sum_n. change (add BA) with b_plus. rewrite zero_BA. split; [split; [exact H1|apply H3]|exact H2].
Qed.

(** *** The three distances *)
Definition diffs (x y : list b64) : list R := map2 (fun a b => brnd (value a - value b)) x y.

Lemma map2_length {A B C} (f : A -> B -> C) x y : length x = length y -> length (map2 f x y) = length x.
Proof. revert y. induction x as [|a x IH]; intros [|b y] H; simpl in *; auto; discriminate. Qed.

Lemma sub_ok m x y : moderate m x -> moderate m y ->
  Forall (small 501) (map2 (sub BA) x y) /\ map value (map2 (sub BA) x y) = diffs x y /\ length (map2 (sub BA) x y) = m.
Proof.
  intros [Lx Fx] [Ly Fy]. assert (E : length x = length y) by congruence.
  split; [|split; [|rewrite map2_length; auto]]; clear Lx Ly;
    revert y Fy E; induction Fx as [|a x Ha Fx IH]; intros [|b y] Fy E; try discriminate; simpl; try constructor;
    inversion Fy; subst; injection E as E; destruct (small_minus 500 a b) as [S V]; auto; try lia.
  unfold diffs in *. simpl. f_equal; [exact V|auto].
Qed.

Definition man_r (x y : list b64) : R := rsum (map Rabs (diffs x y)).
Definition euc_r (x y : list b64) : R := brnd (sqrt (rsum (map (fun a => brnd (a * a)) (diffs x y)))).
Definition che_r (x y : list b64) : R := fold_right Rmax 0 (map Rabs (diffs x y)).

Lemma norm_one (v : list b64) : norm BA b_sqrt (Ord (ofz BA 1)) v = sum_n BA (map (abs_n BA) v).
Proof.
  unfold norm. assert (E1 : eq_b BA (ofz BA 1) (ofz BA 2) = false) by (vm_compute; reflexivity).
  assert (E2 : eq_b BA (ofz BA 1) (zero BA) = false) by (vm_compute; reflexivity).
  assert (E3 : eq_b BA (ofz BA 1) (ofz BA 1) = true) by (vm_compute; reflexivity).
  rewrite E1, E2, E3. reflexivity.
Qed.

Lemma abs_list k v : Forall (small k) v ->
  Forall (fun a => small k a /\ 0 <= value a) (map (abs_n BA) v) /\ map value (map (abs_n BA) v) = map Rabs (map value v).
Proof.
  intro H. induction H as [|a v [Fa Ha] H [IH1 IH2]]; simpl; [split; constructor|].
  destruct (abs_n_val a Fa) as [F V]. split.
  - constructor; auto. split; [split; [exact F|]|]; rewrite V; [rewrite Rabs_Rabsolu; exact Ha|apply Rabs_pos].
  - exact (f_equal2 cons V IH2).
Qed.

Lemma manhattan_val m x y : (Z.of_nat m <= 2 ^ 20)%Z -> moderate m x -> moderate m y ->
  magnitude (manhattan BA b_sqrt x y) /\ value (manhattan BA b_sqrt x y) = man_r x y.
Proof.
  intros Hm Hx Hy. destruct (sub_ok m x y Hx Hy) as [S [V L]]. unfold manhattan. rewrite norm_one.
  destruct (abs_list 501 _ S) as [A1 A2].
  destruct (sum_n_val 501 (map (abs_n BA) (map2 (sub BA) x y))) as [M E]; auto; try lia.
  { rewrite map_length, L. exact Hm. }
  split; [exact M|]. rewrite E, A2. unfold man_r. rewrite <- V. reflexivity.
Qed.

Lemma sqrt_val a : magnitude a -> magnitude (b_sqrt a) /\ value (b_sqrt a) = brnd (sqrt (value a)).
Proof.
  intros [F N]. destruct (Bsqrt_correct 53 1024 prec53 emax1024 mode_NE a) as [V [Fs _]].
  split; [|exact V]. split.
  - unfold finite, b_sqrt. etransitivity; [exact Fs|]. destruct a as [s|s| |s mm e Hb]; try discriminate; auto.
    destruct s; auto. exfalso. unfold value, B2R in N. simpl in N.
    pose proof (F2R_lt_0 radix2 (Float radix2 (Zneg mm) e) ltac:(simpl; lia)). unfold F2R in H. simpl in H. unfold F2R in N. simpl in N. lra.
  - unfold value, b_sqrt. rewrite V. apply brnd_nonneg, sqrt_pos.
Qed.

Lemma sq_list v : Forall (small 501) v ->
  Forall (fun a => small 1002 a /\ 0 <= value a) (map (fun a => b_mult a a) v) /\
  map value (map (fun a => b_mult a a) v) = map (fun a => brnd (a * a)) (map value v).
Proof.
  intro H. induction H as [|a v Ha H [IH1 IH2]]; simpl; [split; constructor|].
  destruct (small_mult 501 a a) as [S V]; auto; try lia. split.
  - constructor; auto. split; [exact S|]. rewrite V. apply brnd_nonneg. apply Rle_0_sqr.
  - exact (f_equal2 cons V IH2).
Qed.

Lemma euclidean_val m x y : (Z.of_nat m <= 2 ^ 20)%Z -> moderate m x -> moderate m y ->
  magnitude (euclidean BA b_sqrt x y) /\ value (euclidean BA b_sqrt x y) = euc_r x y.
Proof.
  intros Hm Hx Hy. destruct (sub_ok m x y Hx Hy) as [S [V L]]. unfold euclidean, norm2.
  change (mul BA) with b_mult. destruct (sq_list _ S) as [A1 A2].
  destruct (sum_n_val 1002 (map (fun a => b_mult a a) (map2 (sub BA) x y))) as [M E]; auto; try lia.
  { replace (length (map (fun a => b_mult a a) (map2 (sub BA) x y))) with m; [exact Hm|].
    symmetry. etransitivity; [apply map_length|exact L]. }
  destruct (sqrt_val _ M) as [M2 E2]. split; [exact M2|]. etransitivity; [exact E2|].
  unfold euc_r. do 2 f_equal. etransitivity; [exact E|]. f_equal. etransitivity; [exact A2|]. f_equal. exact V.
Qed.

Lemma max_n_val a b : finite a -> finite b -> finite (max_n BA a b) /\ value (max_n BA a b) = Rmax (value a) (value b).
Proof.
  intros Fa Fb. unfold max_n. change (le_b BA) with b_le. rewrite b_le_val by assumption. fold (value a) (value b).
  unfold Rleb. destruct (Rle_dec (value a) (value b)) as [H|H]; split; auto.
  - symmetry. apply Rmax_right, H.
  - symmetry. apply Rmax_left. lra.
Qed.

Lemma max_list l : Forall (fun a => finite a) l ->
  magnitude (fold_right (max_n BA) (zero BA) l) /\ value (fold_right (max_n BA) (zero BA) l) = fold_right Rmax 0 (map value l).
Proof.
  intro H. induction H as [|a l Fa H [[IF IP] IV]]; simpl.
  - change (magnitude (zero BA) /\ value (zero BA) = 0). rewrite zero_BA.
    split; [split; [reflexivity|]|reflexivity]. change (value b_zero) with 0. lra.
  - destruct (max_n_val a _ Fa IF) as [F V]. split; [split; [exact F|]|].
    + eapply Rle_trans; [|apply Req_le; symmetry; exact V]. eapply Rle_trans; [exact IP|apply Rmax_r].
    + etransitivity; [exact V|]. f_equal. exact IV.
Qed.

Lemma chebyshev_val m x y : moderate m x -> moderate m y ->
  magnitude (chebyshev_norm BA b_sqrt x y) /\ value (chebyshev_norm BA b_sqrt x y) = che_r x y.
Proof.
  intros Hx Hy. destruct (sub_ok m x y Hx Hy) as [S [V L]]. unfold chebyshev_norm, norm.
  destruct (abs_list 501 _ S) as [A1 A2].
  destruct (max_list (map (abs_n BA) (map2 (sub BA) x y))) as [M E].
  { eapply Forall_impl; [|exact A1]. intros a [[F _] _]. exact F. }
  split; [exact M|]. etransitivity; [exact E|]. unfold che_r. f_equal. etransitivity; [exact A2|]. f_equal. exact V.
Qed.

(** *** Symmetry, distance to itself *)
Lemma diffs_opp x y : diffs y x = map Ropp (diffs x y).
Proof.
  revert y. induction x as [|a x IH]; intros [|b y]; simpl; auto. unfold diffs in *. simpl. rewrite IH.
  f_equal. replace (value b - value a) with (- (value a - value b)) by ring. apply brnd_opp.
Qed.
Lemma diffs_self x : Forall (fun a => a = 0) (diffs x x).
Proof.
  induction x as [|a x IH]; simpl; constructor; auto. rewrite Rminus_diag_eq by reflexivity. apply brnd_0.
Qed.

Lemma man_sym x y : man_r x y = man_r y x.
Proof. unfold man_r. rewrite (diffs_opp x y), map_map. f_equal. apply map_ext. intro a. symmetry. apply Rabs_Ropp. Qed.
Lemma euc_sym x y : euc_r x y = euc_r y x.
Proof.
  unfold euc_r. rewrite (diffs_opp x y), map_map. do 3 f_equal. apply map_ext. intro a. f_equal. ring.
Qed.
Lemma che_sym x y : che_r x y = che_r y x.
Proof. unfold che_r. rewrite (diffs_opp x y), map_map. f_equal. apply map_ext. intro a. symmetry. apply Rabs_Ropp. Qed.

Lemma rsum_zero l : Forall (fun a => a = 0) l -> rsum l = 0.
Proof.
  unfold rsum. intro H. induction H as [|a l -> H IH]; simpl; [reflexivity|].
  rewrite Rplus_0_l, brnd_0. exact IH.
Qed.
Lemma zero_map (f : R -> R) l : f 0 = 0 -> Forall (fun a => a = 0) l -> Forall (fun a => a = 0) (map f l).
Proof. intros Hf H. induction H as [|a l -> H IH]; simpl; constructor; auto. Qed.

Lemma man_self x : man_r x x = 0.
Proof. apply rsum_zero, zero_map; [apply Rabs_R0|apply diffs_self]. Qed.
Lemma euc_self x : euc_r x x = 0.
Proof.
  unfold euc_r. rewrite rsum_zero.
  - rewrite sqrt_0. apply brnd_0.
  - apply zero_map; [|apply diffs_self]. rewrite Rmult_0_l. apply brnd_0.
Qed.
Lemma che_self x : che_r x x = 0.
Proof.
  unfold che_r. assert (H := zero_map Rabs _ Rabs_R0 (diffs_self x)).
  induction H as [|a l -> H IH]; simpl; [reflexivity|]. rewrite IH. apply Rmax_left. lra.
Qed.

(** A distance function that behaves as the cover needs. *)
Definition well_behaved (m : nat) (d : list b64 -> list b64 -> b64) : Prop :=
  (forall x y, moderate m x -> moderate m y -> magnitude (d x y) /\ value (d x y) = value (d y x)) /\
  (forall x, moderate m x -> value (d x x) = 0).

Lemma euclidean_well m : (Z.of_nat m <= 2 ^ 20)%Z -> well_behaved m (euclidean BA b_sqrt).
Proof.
  intro Hm. split; intros.
  - destruct (euclidean_val m x y Hm H H0) as [M V], (euclidean_val m y x Hm H0 H) as [_ V']. split; [exact M|].
    etransitivity; [exact V|]. etransitivity; [apply euc_sym|]. symmetry. exact V'.
  - destruct (euclidean_val m x x Hm H H) as [M V]. etransitivity; [exact V|apply euc_self].
Qed.
Lemma manhattan_well m : (Z.of_nat m <= 2 ^ 20)%Z -> well_behaved m (manhattan BA b_sqrt).
Proof.
  intro Hm. split; intros.
  - destruct (manhattan_val m x y Hm H H0) as [M V], (manhattan_val m y x Hm H0 H) as [_ V']. split; [exact M|].
    etransitivity; [exact V|]. etransitivity; [apply man_sym|]. symmetry. exact V'.
  - destruct (manhattan_val m x x Hm H H) as [M V]. etransitivity; [exact V|apply man_self].
Qed.
Lemma chebyshev_well m : well_behaved m (chebyshev_norm BA b_sqrt).
Proof.
  split; intros.
  - destruct (chebyshev_val m x y H H0) as [M V], (chebyshev_val m y x H0 H) as [_ V']. split; [exact M|].
    etransitivity; [exact V|]. etransitivity; [apply che_sym|]. symmetry. exact V'.
  - destruct (chebyshev_val m x x H H) as [M V]. etransitivity; [exact V|apply che_self].
Qed.

Lemma well_ok m d X : well_behaved m d -> Forall (moderate m) X -> distances_ok d X.
Proof. intros [H _] HX x y Hx Hy. rewrite Forall_forall in HX. apply H; auto. Qed.
