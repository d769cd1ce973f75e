(** The cosine distance in double precision: C47. *)
From Coq Require Import Reals Lra SpecFloat.
From Flocq Require Import Core BinarySingleNaN.
From Verif Require Import Base ModelCore ModelVPTree ModelArith ModelCover ModelMetrics ModelFloat ModelFastmath ModelFastCosine SpecDouble SpecMetric SpecMetrics
  SpecCosine FloatFacts FloatGrid FloatMetric FloatCosine FastCosineProp GapsFacts.
Open Scope R_scope.

(** ** C47: the computed distance. On vectors of moderate size no exception is raised. The
    result is NaN only for vectors whose true distance is close to 0; otherwise the square of
    the result is close to the square of the true distance [D]. *)
Theorem C47_accuracy : forall m (x y : list b64) D, (Z.of_nat m <= 2 ^ 20)%Z -> fair m x -> fair m y ->
  is_cosine (reals x) (reals y) D ->
  exists d, cosine BA b_sqrt x y = Ok d /\
    ((d = B754_nan /\ D * D <= (6 * INR m + 34) * bpow radix2 (-52)) \/
     (magnitude d /\ Rabs (value d * value d - D * D) <= (6 * INR m + 40) * bpow radix2 (-52))).
Proof. exact cosine_accuracy. Qed.
Print Assumptions C47_accuracy.

(** ** C47: the distance of a vector to itself is NaN or small. *)
Theorem C47_self : forall m (x : list b64), (Z.of_nat m <= 2 ^ 20)%Z -> fair m x ->
  exists d, cosine BA b_sqrt x x = Ok d /\
    (d = B754_nan \/ magnitude d /\ value d * value d <= (6 * INR m + 40) * bpow radix2 (-52)).
Proof.
  intros m x Hm F. assert (P : 0 < total Rmult (reals x) (reals x)).
  { destruct F as [_ [_ F]]. eapply Rlt_le_trans; [apply bpow_gt_0|exact F]. }
  assert (C : is_cosine (reals x) (reals x) 0).
  { split; [lra|]. exists (sqrt (total Rmult (reals x) (reals x))), (sqrt (total Rmult (reals x) (reals x))), 1.
    pose proof (sqrt_lt_R0 _ P). pose proof (sqrt_sqrt _ (Rlt_le _ _ P)). repeat (split; [assumption|]). split; lra. }
  destruct (C47_accuracy m x x 0 Hm F F C) as [d [E [[N _]|[M B]]]]; exists d; (split; [exact E|]); [left; exact N|right].
  split; [exact M|]. apply Rabs_le_inv in B. lra.
Qed.
Print Assumptions C47_self.

(** ** C47: it is symmetric, whatever the entries are: equal results, equal exceptions. *)
Theorem C47_symmetric : forall x y : list b64, cosine BA b_sqrt x y = cosine BA b_sqrt y x.
Proof. exact cosine_comm. Qed.
Print Assumptions C47_symmetric.

(** ** C47: every set of a [BallCover] lies in a ball of the true distance, a little larger
    than the radius, around a point of the dataset. *)
Definition b_cosine (x y : list b64) : b64 := match cosine BA b_sqrt x y with Ok d => d | Err _ => B754_nan end.
Theorem C47_ball_sound : forall m gap zero (c : ball_cover b64) (X : list (list b64)) s,
  (Z.of_nat m <= 2 ^ 20)%Z -> (forall x, In x X -> fair m x) -> magnitude (bc_radius c) ->
  In s (yields (ball_apply b_le b_lt gap zero b_cosine c X)) ->
  exists a x, nth_error X a = Some x /\ forall i, In i s -> exists y, nth_error X i = Some y /\
    forall D, is_cosine (reals x) (reals y) D ->
      D * D < value (bc_radius c) * value (bc_radius c) + (6 * INR m + 40) * bpow radix2 (-52).
Proof.
  intros m gap zero c X s Hm HX [Fr Pr] Is.
  destruct (ball_apply_found b_cosine b_le b_lt gap zero c X s Is) as [a [x [Ha P]]]. exists a, x. split; [exact Ha|].
  intros i Ii. destruct (P i Ii) as [y [Hy Q]]. exists y. split; [exact Hy|]. intros D HD.
  assert (Q' : b_lt (b_cosine x y) (bc_radius c) = true).
  { destruct Q as [Q|Q]; [exact Q|]. unfold b_cosine in *. rewrite C47_symmetric. exact Q. }
  destruct (C47_accuracy m x y D Hm (HX x (nth_error_In _ _ Ha)) (HX y (nth_error_In _ _ Hy)) HD) as [d [E [[N _]|[[Fd Pd] B]]]];
    unfold b_cosine in Q'; rewrite E in Q'.
  - subst d. unfold b_lt, Bltb in Q'. simpl in Q'. discriminate.
  - rewrite (b_lt_val d (bc_radius c) Fd Fr) in Q'. change (Rltb (value d) (value (bc_radius c)) = true) in Q'. unfold Rltb in Q'.
    destruct (Rlt_dec _ _) as [L|]; [|discriminate]. apply Rabs_le_inv in B.
    assert (value d * value d < value (bc_radius c) * value (bc_radius c)) by (apply Rmult_le_0_lt_compat; lra). lra.
Qed.
Print Assumptions C47_ball_sound.

(** ** C47: the same bounds hold however the compiled code orders, groups and fuses the sums. *)
Theorem C47_fast_accuracy : forall m p q r (x y : list b64) D, (Z.of_nat m <= 2 ^ 20)%Z ->
  plan_for m p -> plan_for m q -> plan_for m r -> fair m x -> fair m y -> is_cosine (reals x) (reals y) D ->
  exists d, fast_cosine p q r x y = Ok d /\
    ((d = B754_nan /\ D * D <= (6 * INR m + 34) * bpow radix2 (-52)) \/
     (magnitude d /\ Rabs (value d * value d - D * D) <= (6 * INR m + 40) * bpow radix2 (-52))).
Proof. exact fast_cosine_accuracy. Qed.
Print Assumptions C47_fast_accuracy.

(** The plans may be different in every call. *)
Definition compiled_cosine (m : nat) (metric : list b64 -> list b64 -> b64) : Prop :=
  forall x y, fair m x -> fair m y ->
  exists p q r, plan_for m p /\ plan_for m q /\ plan_for m r /\ fast_cosine p q r x y = Ok (metric x y).
Theorem C47_fast_ball_sound : forall m metric gap zero (c : ball_cover b64) (X : list (list b64)) s,
  (Z.of_nat m <= 2 ^ 20)%Z -> compiled_cosine m metric -> (forall x, In x X -> fair m x) -> magnitude (bc_radius c) ->
  In s (yields (ball_apply b_le b_lt gap zero metric c X)) ->
  exists a x, nth_error X a = Some x /\ forall i, In i s -> exists y, nth_error X i = Some y /\
    forall D, is_cosine (reals x) (reals y) D ->
      D * D < value (bc_radius c) * value (bc_radius c) + (6 * INR m + 40) * bpow radix2 (-52).
Proof.
  intros m metric gap zero c X s Hm Hd HX [Fr Pr] Is.
  destruct (ball_apply_found metric b_le b_lt gap zero c X s Is) as [a [x [Ha P]]]. exists a, x. split; [exact Ha|].
  intros i Ii. destruct (P i Ii) as [y [Hy Q]]. exists y. split; [exact Hy|]. intros D HD.
  assert (K : forall x y, In x X -> In y X -> is_cosine (reals x) (reals y) D -> b_lt (metric x y) (bc_radius c) = true ->
    D * D < value (bc_radius c) * value (bc_radius c) + (6 * INR m + 40) * bpow radix2 (-52)).
  { clear - Hm Hd HX Fr Pr. intros x y Ix Iy HD Q. destruct (Hd x y (HX x Ix) (HX y Iy)) as [p [q [r [Hp [Hq [Hr E]]]]]].
    destruct (C47_fast_accuracy m p q r x y D Hm Hp Hq Hr (HX x Ix) (HX y Iy) HD) as [d [E' [[N _]|[[Fd Pd] B]]]];
      rewrite E in E'; injection E' as E'; rewrite E' in Q.
    - subst d. rewrite N in Q. unfold b_lt, Bltb in Q. simpl in Q. discriminate.
    - rewrite (b_lt_val d (bc_radius c) Fd Fr) in Q. change (Rltb (value d) (value (bc_radius c)) = true) in Q. unfold Rltb in Q.
      destruct (Rlt_dec _ _) as [L|]; [|discriminate]. apply Rabs_le_inv in B.
      assert (value d * value d < value (bc_radius c) * value (bc_radius c)) by (apply Rmult_le_0_lt_compat; lra). lra. }
  destruct Q as [Q|Q]; [apply (K x y)|apply (K y x)]; eauto using nth_error_In.
  assert (C : forall u v, total Rmult u v = total Rmult v u).
  { induction u as [|z u IH]; intros [|w v]; simpl; try reflexivity. rewrite IH. ring. }
  destruct HD as [D0 [nx [ny [t [P1 [P2 [P3 [P4 [P5 P6]]]]]]]]]. split; [exact D0|]. exists ny, nx, t.
  repeat (split; [assumption|]). split; [rewrite (C (reals y)), <- P5; ring|exact P6].
Qed.
Print Assumptions C47_fast_ball_sound.

(** *** Vectors of small integers meet the hypotheses. *)
Definition ints (l : list Z) : list b64 := map b_ofz l.
Lemma ints_val l : Forall (fun z => (Z.abs z < 2 ^ 53)%Z) l -> Forall (small 300) (ints l) /\ reals (ints l) = map IZR l.
Proof.
  intro H. induction H as [|z l Hz H [I1 I2]]; [split; constructor|]. destruct (b_ofz_val z Hz) as [F V]. split.
  - constructor; [|exact I1]. split; [exact F|]. rewrite V, <- abs_IZR. apply Rle_trans with (bpow radix2 53); [|apply bpow_le; lia].
    change (bpow radix2 53) with (IZR (2 ^ 53)). apply IZR_le. lia.
  - exact (f_equal2 cons V I2).
Qed.
Lemma ints_fair l : Forall (fun z => (Z.abs z < 2 ^ 53)%Z) l -> 1 <= total Rmult (map IZR l) (map IZR l) -> fair (length l) (ints l).
Proof.
  intros H N. destruct (ints_val l H) as [S V]. split; [apply map_length|]. split; [exact S|]. rewrite V.
  eapply Rle_trans; [|exact N]. change 1 with (bpow radix2 0). apply bpow_le. lia.
Qed.

(** At a right angle: [D = sqrt 2]; the computed distance is the double below. *)
Example C47_right_angle :
  fair 2 (ints [1; 2]%Z) /\ fair 2 (ints [2; -1]%Z) /\ is_cosine (reals (ints [1; 2]%Z)) (reals (ints [2; -1]%Z)) (sqrt 2) /\
  B2SF (b_cosine (ints [1; 2]%Z) (ints [2; -1]%Z)) = S754_finite false 6369051672525773 (-52).
Proof.
  assert (A : Forall (fun z => (Z.abs z < 2 ^ 53)%Z) [1; 2]%Z) by (repeat (apply Forall_cons; [reflexivity|]); constructor).
  assert (B : Forall (fun z => (Z.abs z < 2 ^ 53)%Z) [2; -1]%Z) by (repeat (apply Forall_cons; [reflexivity|]); constructor).
  split; [apply (ints_fair _ A); simpl; lra|]. split; [apply (ints_fair _ B); simpl; lra|]. split; [|vm_compute; reflexivity].
  rewrite (proj2 (ints_val _ A)), (proj2 (ints_val _ B)). split; [apply sqrt_pos|]. exists (sqrt 5), (sqrt 5), 0.
  assert (S5 : 0 < sqrt 5) by (apply sqrt_lt_R0; lra). assert (E5 : sqrt 5 * sqrt 5 = 5) by (apply sqrt_sqrt; lra).
  assert (E2 : sqrt 2 * sqrt 2 = 2) by (apply sqrt_sqrt; lra). simpl. repeat split; lra.
Qed.

(** Two plans for two entries, and what they compute. *)
Definition plan_a : plan := Join (Item 1) (Item 0).
Definition plan_b : plan := Fused (Item 0) 1.
Example C47_plans : plan_for 2 plan_a /\ plan_for 2 plan_b /\
  match fast_cosine plan_a plan_b plan_a (ints [1; 2]%Z) (ints [2; -1]%Z) with Ok d => B2SF d | Err _ => S754_nan end = S754_finite false 6369051672525773 (-52).
Proof.
  split; [unfold plan_for; simpl; apply Permutation.perm_swap|]. split; [unfold plan_for; simpl; apply Permutation.perm_swap|]. vm_compute. reflexivity.
Qed.

(** ** C47: different directions can be at computed distance 0. *)
Theorem C47_distinct_refuted : exists (x y : list b64) D d,
  fair 2 x /\ fair 2 y /\ is_cosine (reals x) (reals y) D /\ 0 < D /\ cosine BA b_sqrt x y = Ok d /\ magnitude d /\ value d = 0.
Proof.
  exists (ints [2 ^ 30; 0]%Z), (ints [2 ^ 30; 1]%Z).
  assert (A : Forall (fun z => (Z.abs z < 2 ^ 53)%Z) [2 ^ 30; 0]%Z) by (repeat (apply Forall_cons; [reflexivity|]); constructor).
  assert (B : Forall (fun z => (Z.abs z < 2 ^ 53)%Z) [2 ^ 30; 1]%Z) by (repeat (apply Forall_cons; [reflexivity|]); constructor).
  assert (FA : fair 2 (ints [2 ^ 30; 0]%Z)) by (apply (ints_fair _ A); simpl; lra).
  assert (FB : fair 2 (ints [2 ^ 30; 1]%Z)) by (apply (ints_fair _ B); simpl; lra).
  assert (E : match cosine BA b_sqrt (ints [2 ^ 30; 0]%Z) (ints [2 ^ 30; 1]%Z) with Ok d => B2SF d | Err _ => S754_nan end = S754_zero false) by (vm_compute; reflexivity).
  destruct (cosine BA b_sqrt (ints [2 ^ 30; 0]%Z) (ints [2 ^ 30; 1]%Z)) as [d|e]; [|discriminate].
  set (n2 := 1152921504606846977). set (ny := sqrt n2). set (s := 1073741824 / ny). exists (sqrt (2 * (1 - s))), d.
  assert (PN : 0 < n2) by (unfold n2; lra). assert (Py : 0 < ny) by (apply sqrt_lt_R0, PN). assert (Ey : ny * ny = n2) by (apply sqrt_sqrt; lra).
  assert (G : 1073741824 < ny) by (apply Rsqr_incrst_0; unfold Rsqr; [rewrite Ey; unfold n2; lra|lra|lra]).
  assert (S1 : s < 1).
  { unfold s, Rdiv. apply (Rmult_lt_reg_r ny); [exact Py|]. rewrite Rmult_assoc, Rinv_l, Rmult_1_r, Rmult_1_l by lra. exact G. }
  split; [exact FA|]. split; [exact FB|]. split; [|split; [|split; [reflexivity|]]].
  - rewrite (proj2 (ints_val _ A)), (proj2 (ints_val _ B)). split; [apply sqrt_pos|]. exists 1073741824, ny, s. simpl.
    repeat split; try lra; [unfold n2 in Ey; lra|unfold s; field_simplify; lra|]. apply sqrt_sqrt. lra.
  - apply sqrt_lt_R0. lra.
  - destruct d as [b|b| |b mm e Hb]; try discriminate. split; [split; [reflexivity|unfold value, B2R; lra]|reflexivity].
Qed.
Print Assumptions C47_distinct_refuted.
