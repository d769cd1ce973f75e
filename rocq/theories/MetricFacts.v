(** Real inequalities for the norms of ModelMetrics. *)
From Coq Require Import Reals Lra Lia List.
From Verif Require Import Base ModelArith ModelMetrics SpecMetric SpecMetrics SpecCubical CubicalFacts VPProp.
Open Scope R_scope.

(** ** Powers *)
Definition pw (a p : R) : R := if Req_EM_T a 0 then 0 else Rpower a p.

Lemma pw_0 p : pw 0 p = 0.
Proof. unfold pw. destruct (Req_EM_T 0 0); lra. Qed.
Lemma pw_pos a p : a <> 0 -> pw a p = Rpower a p.
Proof. intro H. unfold pw. destruct (Req_EM_T a 0); [contradiction|reflexivity]. Qed.
Lemma pw_nonneg a p : 0 <= pw a p.
Proof. unfold pw. destruct (Req_EM_T a 0); [lra|]. left. apply exp_pos. Qed.
Lemma pw_zero a p : 0 <= a -> pw a p = 0 -> a = 0.
Proof.
  unfold pw. destruct (Req_EM_T a 0); auto. intros _ H. pose proof (exp_pos (p * ln a)). unfold Rpower in H. lra.
Qed.
Lemma pw_gt0 a p : 0 < a -> 0 < pw a p.
Proof. intro H. rewrite pw_pos by lra. apply exp_pos. Qed.
Lemma pw_1 a : 0 <= a -> pw a 1 = a.
Proof. intros [H| <-]; [|apply pw_0]. rewrite pw_pos by lra. apply Rpower_1, H. Qed.
Lemma pw_2 a : 0 <= a -> pw a 2 = a * a.
Proof.
  intros [H| <-]; [|rewrite pw_0; ring]. rewrite pw_pos by lra.
  replace 2 with (INR 2) by (simpl; lra). rewrite Rpower_pow by exact H. simpl. ring.
Qed.
Lemma pw_mult a b p : 0 <= a -> 0 <= b -> pw (a * b) p = pw a p * pw b p.
Proof.
  intros [Ha| <-] [Hb| <-]; rewrite ?Rmult_0_l, ?Rmult_0_r, ?pw_0; try ring.
  rewrite !pw_pos; try lra.
  - symmetry. apply Rpower_mult_distr; assumption.
  - pose proof (Rmult_lt_0_compat _ _ Ha Hb). lra.
Qed.
Lemma pw_pw a p q : pw (pw a p) q = pw a (p * q).
Proof.
  unfold pw at 2 3. destruct (Req_EM_T a 0); [apply pw_0|].
  rewrite pw_pos; [apply Rpower_mult|]. pose proof (exp_pos (p * ln a)). unfold Rpower. lra.
Qed.
Lemma pw_le a b p : 0 <= a -> a <= b -> 0 < p -> pw a p <= pw b p.
Proof.
  intros [Ha| <-] H Hp; [|rewrite pw_0; apply pw_nonneg].
  rewrite !pw_pos by lra. apply Rle_Rpower_l; lra.
Qed.
Lemma pw_inv a p : p <> 0 -> 0 <= a -> pw (pw a p) (1 / p) = a.
Proof. intros Hp Ha. rewrite pw_pw. replace (p * (1 / p)) with 1 by (field; exact Hp). apply pw_1, Ha. Qed.
Lemma pw_inv' a p : p <> 0 -> 0 <= a -> pw (pw a (1 / p)) p = a.
Proof. intros Hp Ha. rewrite pw_pw. replace (1 / p * p) with 1 by (field; exact Hp). apply pw_1, Ha. Qed.

Lemma exp_ge x : 1 + x <= exp x.
Proof. destruct (Req_dec x 0) as [->|H]; [rewrite exp_0; lra|]. left. apply exp_ineq1, H. Qed.

(** Bernoulli's inequality for real exponents. *)
Lemma bernoulli t p : 0 <= t -> 1 <= p -> 1 + p * (t - 1) <= pw t p.
Proof.
  intros [Ht| <-] Hp; [|rewrite pw_0; lra]. rewrite pw_pos by lra. unfold Rpower.
  set (w := ln t). assert (E : exp w = t) by (apply exp_ln, Ht). rewrite <- E.
  assert (H1 : exp w * (1 + (p * w - w)) <= exp (p * w)).
  { replace (exp (p * w)) with (exp w * exp (p * w - w)) by (rewrite <- exp_plus; f_equal; ring).
    apply Rmult_le_compat_l; [left; apply exp_pos|apply exp_ge]. }
  assert (H2 : exp w * (1 - w) <= 1).
  { replace 1 with (exp w * exp (- w)) at 2 by (rewrite <- exp_plus, Rplus_opp_r; apply exp_0).
    apply Rmult_le_compat_l; [left; apply exp_pos|]. pose proof (exp_ge (- w)). lra. }
  assert (H3 : (p - 1) * (exp w * (1 - w)) <= (p - 1) * 1) by (apply Rmult_le_compat_l; lra).
  nra.
Qed.

Lemma tangent s t p : 0 < s -> 0 <= t -> 1 <= p -> pw s p * (1 + p * (t / s - 1)) <= pw t p.
Proof.
  intros Hs Ht Hp. replace (pw t p) with (pw s p * pw (t / s) p).
  - apply Rmult_le_compat_l; [apply pw_nonneg|]. apply bernoulli; auto.
    apply Rmult_le_pos; [exact Ht|left; apply Rinv_0_lt_compat, Hs].
  - rewrite <- pw_mult; [f_equal; field; lra|lra|].
    apply Rmult_le_pos; [exact Ht|left; apply Rinv_0_lt_compat, Hs].
Qed.

Lemma pw_convex l t u p : 0 <= l <= 1 -> 0 <= t -> 0 <= u -> 1 <= p ->
  pw (l * t + (1 - l) * u) p <= l * pw t p + (1 - l) * pw u p.
Proof.
  intros Hl Ht Hu Hp. set (s := l * t + (1 - l) * u).
  assert (Hs : 0 <= s) by (unfold s; nra).
  destruct Hs as [Hs|Hs].
  - pose proof (tangent s t p Hs Ht Hp) as H1. pose proof (tangent s u p Hs Hu Hp) as H2.
    assert (E : pw s p = l * (pw s p * (1 + p * (t / s - 1))) + (1 - l) * (pw s p * (1 + p * (u / s - 1)))).
    { assert (E0 : l * (t / s - 1) + (1 - l) * (u / s - 1) = 0).
      { replace (l * (t / s - 1) + (1 - l) * (u / s - 1)) with (s / s - 1) by (unfold s at 1; field; lra). field. lra. }
      transitivity (pw s p * (1 + p * (l * (t / s - 1) + (1 - l) * (u / s - 1)))); [rewrite E0; ring|ring]. }
    rewrite E at 1. apply Rplus_le_compat; apply Rmult_le_compat_l; lra.
  - rewrite <- Hs, pw_0. pose proof (pw_nonneg t p). pose proof (pw_nonneg u p). nra.
Qed.

(** One coordinate of Minkowski's inequality. *)
Lemma mink_coord a b u v p : 0 < a -> 0 < b -> 0 <= u -> 0 <= v -> 1 <= p ->
  pw (u + v) p <= pw (a + b) p * (a / (a + b) * (pw u p / pw a p) + b / (a + b) * (pw v p / pw b p)).
Proof.
  intros Ha Hb Hu Hv Hp.
  assert (Eq : forall x y, 0 <= x -> 0 < y -> pw x p / pw y p = pw (x / y) p).
  { intros x y Hx Hy. assert (0 <= x / y) by (apply Rmult_le_pos; [lra|left; apply Rinv_0_lt_compat, Hy]).
    replace (pw x p) with (pw (x / y) p * pw y p).
    - field. pose proof (pw_gt0 y p Hy). lra.
    - rewrite <- pw_mult; [f_equal; field; lra|auto|lra]. }
  rewrite !Eq by assumption.
  replace (b / (a + b)) with (1 - a / (a + b)) by (field; lra).
  assert (Hl : 0 <= a / (a + b) <= 1).
  { split; [apply Rmult_le_pos; [lra|left; apply Rinv_0_lt_compat; lra]|].
    apply (Rmult_le_reg_r (a + b)); [lra|]. unfold Rdiv. rewrite Rmult_assoc, Rinv_l; lra. }
  eapply Rle_trans; [|apply Rmult_le_compat_l; [apply pw_nonneg|apply (pw_convex (a / (a + b)))]]; auto.
  - rewrite <- pw_mult; [right; f_equal; field; lra|lra|].
    assert (0 <= u / a) by (apply Rmult_le_pos; [lra|left; apply Rinv_0_lt_compat, Ha]).
    assert (0 <= v / b) by (apply Rmult_le_pos; [lra|left; apply Rinv_0_lt_compat, Hb]). nra.
  - apply Rmult_le_pos; [lra|left; apply Rinv_0_lt_compat, Ha].
  - apply Rmult_le_pos; [lra|left; apply Rinv_0_lt_compat, Hb].
Qed.

(** ** Sums *)
Lemma fold_left_Rplus l s : fold_left Rplus l s = s + fold_right Rplus 0 l.
Proof. revert s. induction l as [|a l IH]; intro s; simpl; [ring|]. rewrite IH. ring. Qed.

Lemma sum_map2 (h : R -> R) (f : R -> R -> R) x y :
  sum_n RA (map h (map2 f x y)) = total (fun a b => h (f a b)) x y.
Proof.
  unfold sum_n. rewrite (fold_left_Rplus _ 0), Rplus_0_l. revert y.
  induction x as [|a x IH]; intros [|b y]; simpl; try reflexivity. rewrite IH. reflexivity.
Qed.

Lemma total_ext f g x y : (forall a b, f a b = g a b) -> total f x y = total g x y.
Proof. intro H. revert y. induction x as [|a x IH]; intros [|b y]; simpl; auto. rewrite H, IH. reflexivity. Qed.
Lemma total_nonneg f x y : (forall a b, 0 <= f a b) -> 0 <= total f x y.
Proof.
  intro H. revert y. induction x as [|a x IH]; intros [|b y]; simpl; try lra.
  pose proof (H a b). pose proof (IH y). lra.
Qed.
Lemma total_sym f x y : (forall a b, f a b = f b a) -> total f x y = total f y x.
Proof. intro H. revert y. induction x as [|a x IH]; intros [|b y]; simpl; auto. rewrite H, IH. reflexivity. Qed.
Lemma total_zero f x y : (forall a b, 0 <= f a b) -> (forall a b, f a b = 0 -> a = b) ->
  length x = length y -> total f x y = 0 -> x = y.
Proof.
  intros Hn Hz. revert y. induction x as [|a x IH]; intros [|b y] L H; simpl in *; try discriminate; auto.
  pose proof (Hn a b). pose proof (total_nonneg f x y Hn). f_equal; [apply Hz; lra|apply IH; [lia|lra]].
Qed.
Lemma total_self f x : (forall a, f a a = 0) -> total f x x = 0.
Proof. intro H. induction x as [|a x IH]; simpl; auto. rewrite H, IH. ring. Qed.
Lemma total_scale c f x y : total (fun a b => c * f a b) x y = c * total f x y.
Proof. revert y. induction x as [|a x IH]; intros [|b y]; simpl; try ring. rewrite IH. ring. Qed.

(** Minkowski's inequality for the sums of powers of differences. *)
Section Minkowski.
Variable p : R.
Hypothesis Hp : 1 <= p.
Definition psum (x y : list R) : R := total (fun a b => pw (Rabs (a - b)) p) x y.
Definition pdist (x y : list R) : R := pw (psum x y) (1 / p).

Lemma psum_nonneg x y : 0 <= psum x y.
Proof. apply total_nonneg. intros. apply pw_nonneg. Qed.
Lemma pdist_nonneg x y : 0 <= pdist x y.
Proof. apply pw_nonneg. Qed.
Lemma psum_pdist x y : psum x y = pw (pdist x y) p.
Proof. symmetry. apply pw_inv'; [lra|apply psum_nonneg]. Qed.
Lemma psum_zero x y : length x = length y -> psum x y = 0 -> x = y.
Proof.
  intros L H. eapply total_zero; eauto.
  - intros. apply pw_nonneg.
  - intros a b H0. apply pw_zero in H0; [|apply Rabs_pos]. destruct (Req_dec (a - b) 0); [lra|].
    apply Rabs_no_R0 in H1. contradiction.
Qed.
Lemma psum_self x : psum x x = 0.
Proof. apply total_self. intro a. rewrite Rminus_diag_eq, Rabs_R0 by reflexivity. apply pw_0. Qed.
Lemma pdist_zero x y : length x = length y -> (pdist x y = 0 <-> x = y).
Proof.
  intro L. split.
  - intro H. apply psum_zero; [exact L|]. rewrite psum_pdist, H. apply pw_0.
  - intros ->. unfold pdist. rewrite psum_self. apply pw_0.
Qed.
Lemma pdist_sym x y : pdist x y = pdist y x.
Proof. unfold pdist, psum. rewrite total_sym; [reflexivity|]. intros. rewrite Rabs_minus_sym. reflexivity. Qed.

Lemma psum_bound a b : 0 < a -> 0 < b -> forall x y z, length x = length y -> length y = length z ->
  psum x z <= pw (a + b) p * (a / (a + b) * (psum x y / pw a p) + b / (a + b) * (psum y z / pw b p)).
Proof.
  intros Ha Hb x. unfold psum. induction x as [|u x IH]; intros [|v y] [|w z] L1 L2; simpl in *; try discriminate.
  - unfold Rdiv. rewrite !Rmult_0_l, !Rmult_0_r, Rplus_0_l, Rmult_0_r. lra.
  - specialize (IH y z ltac:(lia) ltac:(lia)).
    pose proof (mink_coord a b (Rabs (u - v)) (Rabs (v - w)) p Ha Hb (Rabs_pos _) (Rabs_pos _) Hp) as H.
    assert (H0 : pw (Rabs (u - w)) p <= pw (Rabs (u - v) + Rabs (v - w)) p).
    { apply pw_le; [apply Rabs_pos| |lra]. replace (u - w) with ((u - v) + (v - w)) by ring. apply Rabs_triang. }
    eapply Rle_trans; [apply Rplus_le_compat; [eapply Rle_trans; [exact H0|exact H]|exact IH]|].
    right. unfold Rdiv. ring.
Qed.

Lemma pdist_triangle x y z : length x = length y -> length y = length z ->
  pdist x z <= pdist x y + pdist y z.
Proof.
  intros L1 L2. destruct (pdist_nonneg x y) as [Ha|Ha].
  2:{ symmetry in Ha. apply pdist_zero in Ha; [|exact L1]. subst y. pose proof (pdist_nonneg x x). lra. }
  destruct (pdist_nonneg y z) as [Hb|Hb].
  2:{ symmetry in Hb. apply pdist_zero in Hb; [|exact L2]. subst y. pose proof (pdist_nonneg z z). lra. }
  pose proof (psum_bound _ _ Ha Hb x y z L1 L2) as H. rewrite !psum_pdist in H.
  set (a := pdist x y) in *. set (b := pdist y z) in *.
  assert (E : pw (a + b) p * (a / (a + b) * (pw a p / pw a p) + b / (a + b) * (pw b p / pw b p)) = pw (a + b) p).
  { pose proof (pw_gt0 a p Ha). pose proof (pw_gt0 b p Hb). field. repeat split; lra. }
  rewrite E in H. set (c := pdist x z) in *.
  assert (Hc : 0 <= c) by apply pdist_nonneg.
  rewrite <- (pw_inv c p), <- (pw_inv (a + b) p); try lra.
  apply pw_le; [apply pw_nonneg|exact H|]. apply Rdiv_lt_0_compat; lra.
Qed.
End Minkowski.

(** ** The model on the reals *)
Lemma RA_eqb a b : eq_b RA a b = true <-> a = b.
Proof.
  unfold eq_b. simpl. rewrite Bool.andb_true_iff, !Rleb_true. split; [intros []; lra|intros ->; lra].
Qed.
Lemma RA_eqb_false a b : eq_b RA a b = false <-> a <> b.
Proof. rewrite <- RA_eqb. destruct (eq_b RA a b); split; congruence. Qed.
Lemma abs_n_R a : abs_n RA a = Rabs a.
Proof.
  unfold abs_n, zero. simpl. unfold Rleb. destruct (Rle_dec 0 a); [rewrite Rabs_right by lra; reflexivity|].
  rewrite Rabs_left by lra. ring.
Qed.
Lemma power_R a q : power RA a q = pw a q.
Proof.
  unfold power, pw. destruct (Req_EM_T a 0) as [->|H].
  - replace (eq_b RA 0 (zero RA)) with true; [reflexivity|]. symmetry. apply RA_eqb. reflexivity.
  - replace (eq_b RA a (zero RA)) with false; [reflexivity|]. symmetry. apply RA_eqb_false. exact H.
Qed.

Lemma euclidean_pdist x y : euclidean RA sqrt x y = pdist 2 x y.
Proof.
  unfold euclidean, norm2. change (mul RA) with Rmult. change (sub RA) with Rminus.
  rewrite (sum_map2 (fun a => a * a)). unfold pdist, psum.
  rewrite (total_ext (fun a b => pw (Rabs (a - b)) 2) (fun a b => (a - b) * (a - b))).
  2:{ intros. rewrite pw_2 by apply Rabs_pos. rewrite <- Rabs_mult. apply Rabs_right.
      apply Rle_ge. apply Rle_0_sqr. }
  set (t := total _ x y). assert (Ht : 0 <= t) by (apply total_nonneg; intros; apply Rle_0_sqr).
  destruct Ht as [Ht|<-]; [|rewrite sqrt_0, pw_0; reflexivity].
  rewrite pw_pos by lra. replace (1 / 2) with (/ 2) by lra. symmetry. apply Rpower_sqrt, Ht.
Qed.
Lemma manhattan_total x y : manhattan RA sqrt x y = total (fun a b => Rabs (a - b)) x y.
Proof.
  unfold manhattan, norm.
  replace (eq_b RA (ofz RA 1) (ofz RA 2)) with false by (symmetry; apply RA_eqb_false; simpl; lra).
  replace (eq_b RA (ofz RA 1) (zero RA)) with false by (symmetry; apply RA_eqb_false; unfold zero; simpl; lra).
  replace (eq_b RA (ofz RA 1) (ofz RA 1)) with true by (symmetry; apply RA_eqb; reflexivity).
  rewrite (sum_map2 (abs_n RA)). apply total_ext. intros. apply abs_n_R.
Qed.
Lemma manhattan_pdist x y : manhattan RA sqrt x y = pdist 1 x y.
Proof.
  rewrite manhattan_total. unfold pdist, psum.
  rewrite (total_ext (fun a b => pw (Rabs (a - b)) 1) (fun a b => Rabs (a - b))) by (intros; apply pw_1, Rabs_pos).
  replace (1 / 1) with 1 by field. symmetry. apply pw_1. apply total_nonneg. intros. apply Rabs_pos.
Qed.
Lemma minkowski_norm_pdist p x y : 0 < p -> p <> 1 -> p <> 2 ->
  minkowski_norm RA sqrt (Ord (A:=RA) p) x y = pdist p x y.
Proof.
  intros Hp H1 H2. unfold minkowski_norm, norm.
  replace (eq_b RA p (ofz RA 2)) with false by (symmetry; apply RA_eqb_false; exact H2).
  replace (eq_b RA p (zero RA)) with false by (symmetry; apply RA_eqb_false; unfold zero; simpl; lra).
  replace (eq_b RA p (ofz RA 1)) with false by (symmetry; apply RA_eqb_false; exact H1).
  unfold power_norm. replace (lt_b RA p (zero RA)) with false.
  2:{ symmetry. unfold zero. simpl. unfold Rltb. destruct (Rlt_dec p 0); [lra|reflexivity]. }
  cbn [andb]. rewrite power_R. unfold pdist. change (div RA (ofz RA 1) p) with (1 / p). f_equal.
  rewrite (sum_map2 (fun a => power RA (abs_n RA a) p)). apply total_ext. intros.
  rewrite abs_n_R. apply power_R.
Qed.
Lemma chebyshev_norm_eq x y : chebyshev_norm RA sqrt x y = chebyshev RA x y.
Proof.
  unfold chebyshev_norm, norm, chebyshev. f_equal. revert y.
  induction x as [|a x IH]; intros [|b y]; simpl; auto. rewrite IH. f_equal.
  rewrite abs_n_R. unfold abs_diff. simpl. unfold Rleb. destruct (Rle_dec b a).
  - apply Rabs_right. lra.
  - rewrite Rabs_left by lra. ring.
Qed.
