(** Cubical covers in double precision. *)
From Coq Require Import Reals Lra Psatz Sorted.
From Flocq Require Import Core BinarySingleNaN Relative.
From Verif Require Import Base BaseFacts ModelCore SpecNet CoreLabels CoreProp ModelQuickselect ModelVPTree SpecVPTree
  VPProp ModelArith ModelMetrics ModelCover SpecCover SpecMetric SpecMetrics SpecCubical CoverFacts CoverProp CubicalFacts
  ModelFloat FloatFacts SpecDouble FloatCover FloatMetric FloatAccuracy FloatGrid MetricProp.
Open Scope R_scope.

(** *** Both algorithms, over any arithmetic *)
Section Any.
Variable A : arith.
Variable eps : num A.

Lemma landmark_loop_any (search : vec A -> res (list nat)) lm :
  (forall p, In p lm -> exists s, search (snd p) = Ok s /\ s <> []) ->
  stops (landmark_loop A search lm) = None /\
  Forall2 (fun p s => search (snd p) = Ok s /\ s <> []) lm (yields (landmark_loop A search lm)).
Proof.
  induction lm as [|[k x] lm IH]; intro H; cbn [landmark_loop].
  - split; constructor.
  - destruct (H (k, x) (or_introl eq_refl)) as [s [E Ne]]. simpl in E. rewrite E.
    destruct IH as [I1 I2]; [intros p Hp; apply H; right; exact Hp|].
    destruct s as [|i s]; [congruence|]. cbn [yields stops]. split; [exact I1|].
    constructor; [|exact I2]. split; [exact E|discriminate].
Qed.

Lemma cubical_any (c : cubical A) (X : list (vec A)) b search (Good : list Z -> list nat -> Prop) alg :
  X <> [] -> alg <> OtherAlgorithm -> cubical_fit_state A eps c X = Ok (b, search) ->
  (forall x, In x X -> exists ids, search (phi A b x) = Ok ids /\ Good (offset A b x) ids /\
     forall i, nth_error X i = Some x -> In i ids) ->
  let net := cubical_apply A eps alg c X in
  stops net = None /\ covers (length X) (yields net) /\
  forall s, In s (yields net) -> exists x, In x X /\ Good (offset A b x) s.
Proof.
  intros HX Ha E Q. cbv zeta. destruct alg; [| |congruence]; cbn [cubical_apply].
  - assert (Ef : cubical_fit A eps c X = Ok (cubical_query A (b, search))).
    { unfold cubical_fit. rewrite E. destruct X; [congruence|reflexivity]. }
    assert (Hst : stops (proximity_cubical_apply A eps c X) = None).
    { unfold proximity_cubical_apply. eapply net_total; [|exact Ef]. intros x I.
      destruct (Q x I) as [ids [E2 _]]. exists ids. exact E2. }
    split; [exact Hst|]. split.
    + intros i Hi. eapply net_covers; [exact Ef|exact Hst| |exact Hi].
      intros j x s N Es. destruct (Q x (nth_error_In _ _ N)) as [ids [E2 [_ S]]].
      assert (s = ids) by (unfold cubical_query in Es; simpl in Es; congruence). subst. apply S, N.
    + destruct (net_greedy (cubical_fit A eps c) X _ Ef) as [cs [_ [S2 _]]]. intros s Hs.
      unfold proximity_cubical_apply in Hs. clear - S2 Hs Q.
      induction S2 as [|i s' cs ss [[x [N Es]] _] F IH]; [contradiction|]. destruct Hs as [<-|Hs]; [|auto].
      destruct (Q x (nth_error_In _ _ N)) as [ids [E2 [G _]]]. exists x. split; [eapply nth_error_In, N|].
      assert (s' = ids) by (unfold cubical_query in Es; simpl in Es; congruence). subst. exact G.
  - assert (En : standard_cubical_apply A eps c X = landmark_loop A (cubical_query A (b, search)) (landmarks A b X)).
    { unfold standard_cubical_apply. rewrite E. destruct X; [congruence|reflexivity]. }
    change (landmarks A b X) with (lms (offset A b) X) in En.
    destruct (lms_ok (offset A b) X) as [L1 [L2 [L3 _]]]. set (lm := lms (offset A b) X) in *.
    assert (Hq : forall p, In p lm -> exists s, cubical_query A (b, search) (snd p) = Ok s /\ s <> []).
    { intros p Hp. destruct (L2 p Hp) as [Ip Kp]. destruct (Q (snd p) Ip) as [ids [E2 [_ S]]].
      exists ids. split; [exact E2|]. destruct (In_nth_error _ _ Ip) as [i N].
      pose proof (S i N). intros ->. contradiction. }
    destruct (landmark_loop_any _ lm Hq) as [S1 S2]. rewrite <- En in S1, S2. split; [exact S1|]. split.
    + intros i Hi. destruct (nth_error X i) as [x|] eqn:N; [|apply nth_error_None in N; lia].
      assert (Ix := nth_error_In _ _ N). pose proof (L3 x Ix) as I. apply in_map_iff in I as [p [Kp Ip]].
      apply In_nth_error in Ip as [a Na]. destruct (Forall2_nth_left _ _ _ _ _ S2 Na) as [s [Ns [Es _]]].
      exists s. split; [eapply nth_error_In, Ns|].
      destruct (L2 p (nth_error_In _ _ Na)) as [_ Kp']. destruct (Q x Ix) as [ids [E2 [_ S]]].
      assert (Ep : phi A b (snd p) = phi A b x) by (unfold phi; rewrite Kp', Kp; reflexivity).
      unfold cubical_query in Es. simpl in Es. assert (s = ids) by congruence. subst. apply S, N.
    + intros s Hs. apply In_nth_error in Hs as [a Na].
      assert (F : Forall2 (fun s p => cubical_query A (b, search) (snd p) = Ok s /\ s <> [])
                   (yields (standard_cubical_apply A eps c X)) lm).
      { clear - S2. induction S2; constructor; auto. }
      destruct (Forall2_nth_left _ _ _ _ _ F Na) as [p [Np [Es _]]].
      destruct (L2 p (nth_error_In _ _ Np)) as [Ip _]. destruct (Q (snd p) Ip) as [ids [E2 [G _]]].
      exists (snd p). split; [exact Ip|]. unfold cubical_query in Es. simpl in Es.
      assert (s = ids) by congruence. subst. exact G.
Qed.
End Any.

(** *** Coordinates *)
Definition at_ (x : list b64) (j : nat) : b64 := nth j x b_zero.

Lemma coord_at x j : coord (reals x) j = value (at_ x j).
Proof. unfold coord, reals, at_. change 0 with (value b_zero). apply map_nth. Qed.

Lemma nth_map2 {A B C} (f : A -> B -> C) x y j d d' d'' : (j < length x)%nat -> length x = length y ->
  nth j (map2 f x y) d'' = f (nth j x d) (nth j y d').
Proof.
  revert x y. induction j as [|j IH]; intros [|a x] [|b y] Hj L; simpl in *; try lia; try discriminate; auto.
  apply IH; lia.
Qed.
Lemma at_map2 f x y j : (j < length x)%nat -> length x = length y -> at_ (map2 f x y) j = f (at_ x j) (at_ y j).
Proof. intros. unfold at_. apply nth_map2; auto. Qed.

Lemma moderate_at m x j : moderate m x -> (j < m)%nat -> small 500 (at_ x j).
Proof. intros [L F] Hj. rewrite Forall_forall in F. apply F. apply nth_In. lia. Qed.
Lemma moderate_length m x : moderate m x -> length x = m.
Proof. intros [L _]. exact L. Qed.

Lemma all_at (P : b64 -> Prop) x : (forall j, (j < length x)%nat -> P (at_ x j)) -> Forall P x.
Proof. intro H. apply Forall_forall. intros a Ha. apply (In_nth x a b_zero) in Ha as [j [Hj <-]]. apply H, Hj. Qed.

(** *** Least and greatest values of the columns *)
Lemma min_n_val a b : finite a -> finite b -> finite (min_n BA a b) /\ value (min_n BA a b) = Rmin (value a) (value b).
Proof.
  intros Fa Fb. unfold min_n. change (le_b BA) with b_le. rewrite b_le_val by assumption. fold (value a) (value b).
  unfold Rleb. destruct (Rle_dec (value a) (value b)) as [H|H]; split; auto.
  - symmetry. apply Rmin_left, H.
  - symmetry. apply Rmin_right. lra.
Qed.

Section Rows.
Variable m : nat.
Variable f : b64 -> b64 -> b64.
Hypothesis Hf : forall a b, f a b = a \/ f a b = b.

Lemma moderate_pick x y : moderate m x -> moderate m y -> moderate m (map2 f x y).
Proof.
  intros Hx Hy. assert (Lx := moderate_length _ _ Hx). assert (Ly := moderate_length _ _ Hy).
  split; [rewrite map2_length; congruence|]. apply all_at. rewrite map2_length by congruence. intros j Hj.
  rewrite at_map2 by congruence. destruct (Hf (at_ x j) (at_ y j)) as [->| ->]; eapply moderate_at; eauto; lia.
Qed.

Lemma fold_rows_pick X : Forall (moderate m) X -> forall x0, moderate m x0 ->
  moderate m (fold_rows BA f x0 X) /\
  forall j, (j < m)%nat -> exists x, In x (x0 :: X) /\ at_ (fold_rows BA f x0 X) j = at_ x j.
Proof.
  unfold fold_rows. intro HX. induction HX as [|x X Hx HX IH]; intros x0 H0; cbn [fold_left].
  - split; [exact H0|]. intros j Hj. exists x0. split; [left; reflexivity|reflexivity].
  - destruct (IH (map2 f x0 x) (moderate_pick _ _ H0 Hx)) as [I1 I2]. split; [exact I1|].
    intros j Hj. destruct (I2 j Hj) as [y [[<-|Iy] E]].
    + assert (L0 := moderate_length _ _ H0). assert (L1 := moderate_length _ _ Hx).
      rewrite at_map2 in E by congruence.
      destruct (Hf (at_ x0 j) (at_ x j)) as [Ef|Ef]; rewrite Ef in E; eexists; (split; [|exact E]); simpl; auto.
    + exists y. split; [right; right; exact Iy|exact E].
Qed.
End Rows.

Lemma min_pick a b : min_n BA a b = a \/ min_n BA a b = b.
Proof. unfold min_n. destruct (le_b BA a b); auto. Qed.
Lemma max_pick a b : max_n BA a b = a \/ max_n BA a b = b.
Proof. unfold max_n. destruct (le_b BA a b); auto. Qed.

Lemma fold_rows_min m X : Forall (moderate m) X -> forall x0, moderate m x0 ->
  forall j x, (j < m)%nat -> In x (x0 :: X) -> value (at_ (fold_rows BA (min_n BA) x0 X) j) <= value (at_ x j).
Proof.
  unfold fold_rows. intro HX. induction HX as [|y X Hy HX IH]; intros x0 H0 j x Hj Hx; cbn [fold_left].
  - destruct Hx as [<-|[]]. apply Rle_refl.
  - assert (HM := moderate_pick m (min_n BA) min_pick x0 y H0 Hy).
    assert (L0 := moderate_length _ _ H0). assert (L1 := moderate_length _ _ Hy).
    assert (E : at_ (map2 (min_n BA) x0 y) j = min_n BA (at_ x0 j) (at_ y j)) by (apply at_map2; congruence).
    destruct (min_n_val (at_ x0 j) (at_ y j)) as [_ V]; [eapply moderate_at; eauto|eapply moderate_at; eauto|].
    pose proof (IH _ HM j (map2 (min_n BA) x0 y) Hj (or_introl eq_refl)) as B. rewrite E, V in B.
    destruct Hx as [<-|[<-|Hx]].
    + eapply Rle_trans; [exact B|apply Rmin_l].
    + eapply Rle_trans; [exact B|apply Rmin_r].
    + apply (IH _ HM j x Hj). right. exact Hx.
Qed.
Lemma fold_rows_max m X : Forall (moderate m) X -> forall x0, moderate m x0 ->
  forall j x, (j < m)%nat -> In x (x0 :: X) -> value (at_ x j) <= value (at_ (fold_rows BA (max_n BA) x0 X) j).
Proof.
  unfold fold_rows. intro HX. induction HX as [|y X Hy HX IH]; intros x0 H0 j x Hj Hx; cbn [fold_left].
  - destruct Hx as [<-|[]]. apply Rle_refl.
  - assert (HM := moderate_pick m (max_n BA) max_pick x0 y H0 Hy).
    assert (L0 := moderate_length _ _ H0). assert (L1 := moderate_length _ _ Hy).
    assert (E : at_ (map2 (max_n BA) x0 y) j = max_n BA (at_ x0 j) (at_ y j)) by (apply at_map2; congruence).
    destruct (max_n_val (at_ x0 j) (at_ y j)) as [_ V]; [eapply moderate_at; eauto|eapply moderate_at; eauto|].
    pose proof (IH _ HM j (map2 (max_n BA) x0 y) Hj (or_introl eq_refl)) as B. rewrite E, V in B.
    destruct Hx as [<-|[<-|Hx]].
    + eapply Rle_trans; [apply Rmax_l|exact B].
    + eapply Rle_trans; [apply Rmax_r|exact B].
    + apply (IH _ HM j x Hj). right. exact Hx.
Qed.
