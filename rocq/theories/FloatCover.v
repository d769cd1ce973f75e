(** Covers computed with doubles, related to covers computed with rounded reals. *)
From Coq Require Import Reals Lra Sorted.
From Flocq Require Import Core BinarySingleNaN.
From Verif Require Import Base BaseFacts ModelCore SpecNet CoreLabels CoreProp ModelQuickselect ModelVPTree SpecVPTree
  VPProp ModelCover SpecCover SpecMetric SpecWeak CoverFacts CoverProp CoverWeak Relate ModelArith ModelFloat FloatFacts SpecDouble.
Open Scope R_scope.

Lemma rgap_sym a b : rgap brnd a b = rgap brnd b a.
Proof. unfold rgap. replace (b - a) with (- (a - b)) by ring. rewrite brnd_opp, Rabs_Ropp. reflexivity. Qed.
Lemma rgap_order : order_ok Rleb Rltb (rgap brnd).
Proof. apply R_order_ok_gap, rgap_sym. Qed.
Lemma rgap_self a b : Rleb a b = true -> Rleb b a = true -> rgap brnd a b = 0.
Proof.
  intros H1 H2. apply Rleb_true in H1, H2. unfold rgap. replace (a - b) with 0 by lra.
  rewrite brnd_0. apply Rabs_R0.
Qed.
Lemma rgap_far a b r : brnd r = r -> Rleb (rgap brnd a b) r = false -> r < Rabs (a - b).
Proof.
  intros Hr H. apply Rleb_false in H. unfold rgap in H. rewrite <- brnd_abs in H.
  destruct (Rle_lt_dec (Rabs (a - b)) r) as [L|L]; [|exact L]. apply brnd_le in L. lra.
Qed.

(** A function that computes [abs(a - b)] on distances. *)
Definition gap_fits (gap : b64 -> b64 -> b64) : Prop :=
  forall a r b s, is_val a r -> is_val b s -> is_val (gap a b) (rgap brnd r s).
Lemma b_gap_fits : gap_fits b_gap.
Proof. exact is_val_gap. Qed.
Lemma abs_diff_fits : gap_fits (abs_diff BA).
Proof.
  intros a r b s Ha Hb. assert (G := is_val_gap a r b s Ha Hb). assert (G' := is_val_gap b s a r Hb Ha).
  unfold abs_diff. change (le_b BA) with b_le. change (sub BA) with b_minus. rewrite (is_val_le b s a r Hb Ha).
  rewrite rgap_sym in G'. unfold rgap, b_gap in *.
  unfold Rleb. destruct (Rle_dec s r) as [H|H].
  - destruct G as [F [N V]]. unfold b_abs in F, V. rewrite is_finite_Babs in F. rewrite B2R_Babs in V.
    split; [exact F|]. split; [exact N|]. rewrite V. apply Rabs_right.
    destruct Ha as [Fa [Ha ->]], Hb as [Fb [Hb ->]].
    rewrite (b_minus_fin a b Fa Fb F). apply Rle_ge, brnd_nonneg. lra.
  - destruct G' as [F [N V]]. unfold b_abs in F, V. rewrite is_finite_Babs in F. rewrite B2R_Babs in V.
    split; [exact F|]. split; [exact N|]. rewrite V. apply Rabs_right.
    destruct Ha as [Fa [Ha ->]], Hb as [Fb [Hb ->]].
    rewrite (b_minus_fin b a Fb Fa F). apply Rle_ge, brnd_nonneg. lra.
Qed.

Section Double.
Variable bgap : b64 -> b64 -> b64.
Hypothesis Hgap : gap_fits bgap.
Context {T : Type}.
Variable d : T -> T -> b64.
Variable L : list T.
Hypothesis HL : distances_ok d L.

Definition rd_ (x y : T) : R := value (d x y).
Definition on_L (x y : T) : Prop := x = y /\ In x L.

Lemma on_L_list X : incl X L -> Forall2 on_L X X.
Proof.
  intro H. induction X as [|x X IH]; constructor.
  - split; auto. apply H. left. reflexivity.
  - apply IH. intros y Hy. apply H. right. exact Hy.
Qed.

Lemma metric_val x x' y y' : on_L x x' -> on_L y y' -> is_val (d x y) (rd_ x' y').
Proof.
  intros [<- Hx] [<- Hy]. destruct (HL x y Hx Hy) as [[F N] _]. split; [exact F|]. split; [exact N|reflexivity].
Qed.

Definition ball_real (c : ball_cover b64) : ball_cover R :=
  mkball (value (bc_radius c)) (bc_tree c) (bc_leaf_capacity c) (option_map value (bc_leaf_radius c)).
Definition knn_real (c : knn_cover b64) : knn_cover R :=
  mkknn (kc_neighbors c) (kc_tree c) (kc_leaf_capacity c) (value (kc_leaf_radius c)).

Lemma magnitude_val a : magnitude a -> is_val a (value a).
Proof. intros [F N]. split; [exact F|]. split; [exact N|reflexivity]. Qed.

Lemma ball_real_rel c : magnitude (bc_radius c) -> opt_magnitude (bc_leaf_radius c) -> ball_rel is_val c (ball_real c).
Proof.
  intros H1 H2. repeat split; simpl; try apply H1.
  destruct (bc_leaf_radius c); constructor. apply magnitude_val, H2.
Qed.
Lemma knn_real_rel c : magnitude (kc_leaf_radius c) -> knn_rel is_val c (knn_real c).
Proof. intros H1. repeat split; simpl; apply H1. Qed.

Notation bfit := (ball_fit b_le b_lt bgap b_zero d).
Notation rfit := (ball_fit Rleb Rltb (rgap brnd) 0 rd_).

Lemma ball_fit_double c X : magnitude (bc_radius c) -> opt_magnitude (bc_leaf_radius c) -> incl X L ->
  res_rel (fun_rel on_L) (bfit c X) (rfit (ball_real c) X).
Proof.
  intros H1 H2 HX. eapply (ball_fit_rel on_L is_val); eauto using metric_val, is_val_le, is_val_lt, is_val_zero.
  - apply ball_real_rel; auto.
  - apply on_L_list, HX.
Qed.
Lemma knn_fit_double c X : magnitude (kc_leaf_radius c) -> incl X L ->
  res_rel (fun_rel on_L) (knn_fit b_le b_lt bgap b_zero d c X) (knn_fit Rleb Rltb (rgap brnd) 0 rd_ (knn_real c) X).
Proof.
  intros H1 HX. eapply (knn_fit_rel on_L is_val); eauto using metric_val, is_val_le, is_val_lt, is_val_zero.
  - apply knn_real_rel; auto.
  - apply on_L_list, HX.
Qed.
Lemma ball_apply_double c X : magnitude (bc_radius c) -> opt_magnitude (bc_leaf_radius c) -> incl X L ->
  ball_apply b_le b_lt bgap b_zero d c X = ball_apply Rleb Rltb (rgap brnd) 0 rd_ (ball_real c) X.
Proof.
  intros H1 H2 HX. eapply (ball_apply_rel on_L is_val); eauto using metric_val, is_val_le, is_val_lt, is_val_zero.
  - apply ball_real_rel; auto.
  - apply on_L_list, HX.
Qed.
Lemma knn_apply_double c X : magnitude (kc_leaf_radius c) -> incl X L ->
  knn_apply b_le b_lt bgap b_zero d c X = knn_apply Rleb Rltb (rgap brnd) 0 rd_ (knn_real c) X.
Proof.
  intros H1 HX. eapply (knn_apply_rel on_L is_val); eauto using metric_val, is_val_le, is_val_lt, is_val_zero.
  - apply knn_real_rel; auto.
  - apply on_L_list, HX.
Qed.

Lemma rd_sym x y : In x L -> In y L -> rd_ x y = rd_ y x.
Proof. intros Hx Hy. apply HL; auto. Qed.

(** How far the computed distances are from the triangle inequality. *)
Lemma computed_triangle D err x y z : triangle_on D L -> computes d D err L ->
  In x L -> In y L -> In z L -> rd_ x z <= rd_ x y + rd_ y z + 3 * err.
Proof.
  intros Ht Hc Hx Hy Hz. pose proof (Ht x y z Hx Hy Hz).
  pose proof (Hc x y Hx Hy) as A. pose proof (Hc y z Hy Hz) as B. pose proof (Hc x z Hx Hz) as C.
  apply Rabs_le_inv in A, B, C. unfold rd_ in *. lra.
Qed.

Lemma lost_far D err X q r x : triangle_on D L -> computes d D err L -> incl X L -> In q L -> In x X -> brnd r = r ->
  cut_off rd_ Rleb Rltb (rgap brnd) X q (fun g => Rleb g r = false) x -> r - 4 * err < D q x.
Proof.
  intros Ht Hc HX Hq Hx Hr [v [y [Hv [Hy [Hs Hf]]]]].
  apply rgap_far in Hf; [|exact Hr]. assert (Lv := HX v Hv). assert (Lx := HX x Hx).
  assert (B : Rabs (rd_ q v - rd_ v y) <= rd_ q x + 3 * err).
  { destruct Hs as [[H1 H2]|[H1 H2]].
    - apply Rleb_true in H1, H2. rewrite Rabs_left1 by lra.
      pose proof (computed_triangle D err v q x Ht Hc Lv Hq Lx). rewrite (rd_sym v q) in H by auto. lra.
    - apply Rltb_true in H1. apply Rleb_true in H2. rewrite Rabs_right by lra.
      pose proof (computed_triangle D err q x v Ht Hc Hq Lx Lv). rewrite (rd_sym x v) in H by auto. lra. }
  pose proof (Hc q x Hq Lx) as A. apply Rabs_le_inv in A. unfold rd_ in *. lra.
Qed.
End Double.

(** *** BallCover *)
Section Ball.
Variable bgap : b64 -> b64 -> b64.
Hypothesis Hgap : gap_fits bgap.
Context {T : Type}.
Variable d : T -> T -> b64.

Lemma ball_search_gap (c : ball_cover b64) (X : list T) :
  magnitude (bc_radius c) -> opt_magnitude (bc_leaf_radius c) -> distances_ok d X -> X <> [] ->
  (1 <= bc_leaf_capacity c)%nat -> tp_kind (bc_tree c) <> OtherKind ->
  exists search, ball_fit b_le b_lt bgap b_zero d c X = Ok search /\
    forall q, distances_ok d (q :: X) -> exists ids, search q = Ok ids /\ NoDup ids /\
      (forall i, In i ids -> exists x, nth_error X i = Some x /\ value (d q x) < value (bc_radius c)) /\
      (forall D err, triangle_on D (q :: X) -> computes d D err (q :: X) ->
         forall i x, nth_error X i = Some x -> D q x < value (bc_radius c) - 4 * err -> In i ids).
Proof.
  intros H1 H2 H3 Hn Hc Hk.
  destruct (ball_fit_weak (rd_ d) Rleb Rltb (rgap brnd) 0 rgap_order (ball_real c) X) as [s0 [E0 _]]; auto.
  pose proof (ball_fit_double bgap Hgap d X H3 c X H1 H2 ltac:(intros x Hx; exact Hx)) as R.
  rewrite E0 in R. inversion R as [search s' HR E1 E2|]; subst. exists search. split; [reflexivity|].
  intros q Hq.
  destruct (ball_fit_weak (rd_ d) Rleb Rltb (rgap brnd) 0 rgap_order (ball_real c) X) as [s1 [E3 W]]; auto.
  assert (E4 : s1 = s0) by congruence. subst s1.
  pose proof (ball_fit_double bgap Hgap d (q :: X) Hq c X H1 H2 ltac:(intros x Hx; right; exact Hx)) as R2.
  rewrite E0, <- E1 in R2. inversion R2 as [search2 s2 HR2 E5 E6|]; subst.
  assert (Eq : search q = s0 q) by (apply HR2; split; [reflexivity|left; reflexivity]).
  destruct (W q) as [ids [Eids [Nd [Hin Hlost]]]].
  { intros v Hv. apply (rd_sym d (q :: X) Hq); [right; exact Hv|left; reflexivity]. }
  exists ids. split; [congruence|]. split; [exact Nd|]. split.
  - intros i Hi. destruct (Hin i Hi) as [x [N Hr]]. exists x. split; [exact N|].
    apply Rltb_true in Hr. exact Hr.
  - intros D err Ht Hco i x N Hd.
    destruct (in_dec Nat.eq_dec i ids) as [I|I]; [exact I|]. exfalso.
    assert (Hx : In x (q :: X)) by (right; eapply nth_error_In, N).
    assert (He : 0 <= err).
    { pose proof (Hco q q (or_introl eq_refl) (or_introl eq_refl)). pose proof (Rabs_pos (value (d q q) - D q q)). lra. }
    assert (Hr : rd_ d q x < value (bc_radius c)).
    { pose proof (Hco q x (or_introl eq_refl) Hx) as A. apply Rabs_le_inv in A. unfold rd_. lra. }
    pose proof (Hlost i x N (proj2 (Rltb_true _ _) Hr) I) as C.
    pose proof (lost_far d (q :: X) Hq D err X q (value (bc_radius c)) x Ht Hco) as F.
    simpl in C. assert (value (bc_radius c) - 4 * err < D q x).
    { apply F; auto.
      - intros y Hy. right. exact Hy.
      - left. reflexivity.
      - eapply nth_error_In, N.
      - apply brnd_id. }
    lra.
Qed.

Lemma ball_cover_gap (c : ball_cover b64) (X : list T) :
  magnitude (bc_radius c) -> opt_magnitude (bc_leaf_radius c) -> distances_ok d X ->
  (1 <= bc_leaf_capacity c)%nat -> tp_kind (bc_tree c) <> OtherKind ->
  (forall x, In x X -> value (d x x) < value (bc_radius c)) ->
  exists centers,
    let net := ball_apply b_le b_lt bgap b_zero d c X in
    stops net = None /\ covers (length X) (yields net) /\ StronglySorted lt centers /\
    Forall2 (fun i s => exists x, nth_error X i = Some x /\ In i s /\ NoDup s /\
        (forall j, In j s -> exists y, nth_error X j = Some y /\ value (d x y) < value (bc_radius c)) /\
        (forall D err, triangle_on D X -> computes d D err X ->
           forall j y, nth_error X j = Some y -> D x y < value (bc_radius c) - 4 * err -> In j s))
      centers (yields net) /\
    (forall m m' i s, (m' < m)%nat -> nth_error centers m = Some i -> nth_error (yields net) m' = Some s -> ~ In i s).
Proof.
  intros H1 H2 H3 Hc Hk Hs. cbv zeta.
  rewrite (ball_apply_double bgap Hgap d X H3 c X H1 H2 (fun x Hx => Hx)).
  destruct (ball_apply_weak (rd_ d) Rleb Rltb (rgap brnd) 0 rgap_order (ball_real c) X Hc Hk) as [cs [S1 [S2 [S3 [S4 S5]]]]].
  - intros x y Hx Hy. apply (rd_sym d X H3); auto.
  - intros a b Hab Hba. rewrite rgap_self by auto. apply Rleb_true. apply H1.
  - intros x Hx. apply Rltb_true. apply Hs, Hx.
  - exists cs. split; [exact S1|]. split; [exact S2|]. split; [exact S3|]. split; [|exact S5].
    eapply Forall2_impl; [|exact S4]. intros i s [x [N [I [Nd [Hin Hlost]]]]].
    exists x. split; [exact N|]. split; [exact I|]. split; [exact Nd|].
    assert (Hx : In x X) by (eapply nth_error_In, N). split.
    + intros j Hj. destruct (Hin j Hj) as [y [Ny Hr]]. exists y. split; [exact Ny|]. apply Rltb_true in Hr. exact Hr.
    + intros D err Ht Hco j y Ny Hd. destruct (in_dec Nat.eq_dec j s) as [J|J]; [exact J|]. exfalso.
      assert (Hy : In y X) by (eapply nth_error_In, Ny).
      assert (He : 0 <= err).
      { pose proof (Hco x x Hx Hx). pose proof (Rabs_pos (value (d x x) - D x x)). lra. }
      assert (Hr : rd_ d x y < value (bc_radius c)).
      { pose proof (Hco x y Hx Hy) as A. apply Rabs_le_inv in A. unfold rd_. lra. }
      pose proof (Hlost j y Ny (proj2 (Rltb_true _ _) Hr) J) as C. simpl in C.
      pose proof (lost_far d X H3 D err X x (value (bc_radius c)) y Ht Hco (fun z Hz => Hz) Hx Hy (brnd_id _) C). lra.
Qed.

(** *** KNNCover *)
Lemma knn_cover_gap (c : knn_cover b64) (X : list T) :
  magnitude (kc_leaf_radius c) -> distances_ok d X ->
  (1 <= kc_neighbors c)%nat -> tp_kind (kc_tree c) <> OtherKind ->
  (forall i x, nth_error X i = Some x -> forall l, NoDup l ->
     (forall j, In j l -> j <> i /\ exists y, nth_error X j = Some y /\ value (d x y) <= value (d x x)) ->
     (length l < kc_neighbors c)%nat) ->
  exists centers,
    let net := knn_apply b_le b_lt bgap b_zero d c X in
    stops net = None /\ covers (length X) (yields net) /\ StronglySorted lt centers /\
    Forall2 (fun i s => exists x, nth_error X i = Some x /\ In i s /\ NoDup s /\
        length s = Nat.min (kc_neighbors c) (length X) /\ forall j, In j s -> (j < length X)%nat)
      centers (yields net) /\
    (forall m m' i s, (m' < m)%nat -> nth_error centers m = Some i -> nth_error (yields net) m' = Some s -> ~ In i s).
Proof.
  intros H2 H3 Hc Hk Hs. cbv zeta.
  rewrite (knn_apply_double bgap Hgap d X H3 c X H2 (fun x Hx => Hx)).
  destruct (knn_apply_weak (rd_ d) Rleb Rltb (rgap brnd) 0 rgap_order (knn_real c) X Hc Hk) as [cs [S1 [S2 [S3 [S4 S5]]]]].
  - intros x y Hx Hy. apply (rd_sym d X H3); auto.
  - intros a b q Hq Hab Hba. rewrite rgap_self by auto. apply Rleb_true. apply H3; auto.
  - intros x Hx. apply In_nth_error in Hx as [i Ni]. simpl kc_neighbors.
    set (p := same_place (rd_ d) Rleb x).
    set (l := remove Nat.eq_dec i (ids_of (filter (fun e => p (snd e)) (enumerate X)))).
    assert (Nd : NoDup (ids_of (filter (fun e => p (snd e)) (enumerate X)))).
    { apply nodup_map_filter. fold (ids_of (enumerate X)). rewrite ids_enumerate. apply seq_NoDup. }
    assert (Ii : In i (ids_of (filter (fun e => p (snd e)) (enumerate X)))).
    { apply in_map_iff. exists (Z.of_nat i, x). split; [apply Nat2Z.id|]. apply filter_In.
      split; [apply enumerate_in; eauto|]. apply Rleb_true. simpl. lra. }
    assert (Hl : (length l < kc_neighbors c)%nat).
    { apply (Hs i x Ni).
      - clear - Nd. subst l. induction Nd as [|a m Ha Nd IH]; simpl; [constructor|].
        destruct (Nat.eq_dec i a); auto. constructor; auto. intro I. apply in_remove in I. tauto.
      - intros j Hj. apply in_remove in Hj as [Hj Hne]. split; [exact Hne|].
        apply in_map_iff in Hj as [[z y] [E I]]. apply filter_In in I as [I Hp].
        apply enumerate_in in I as [k [-> N]]. simpl in E. rewrite Nat2Z.id in E. subst k.
        exists y. split; [exact N|]. apply Rleb_true in Hp. exact Hp. }
    assert (Hlen : length (filter p X) = length (ids_of (filter (fun e => p (snd e)) (enumerate X)))).
    { unfold ids_of. rewrite map_length. apply filter_enumerate. }
    rewrite Hlen. clear - Nd Ii Hl. subst l. revert Hl.
    assert (G : forall m, NoDup m -> In i m -> length m = S (length (remove Nat.eq_dec i m))).
    { induction m as [|a m IH]; intros N I; [destruct I|]. inversion N as [|b k N1 N2]; subst. simpl.
      destruct (Nat.eq_dec i a) as [->|Hne].
      - f_equal. rewrite notin_remove; auto.
      - simpl. f_equal. apply IH; auto. destruct I; congruence. }
    rewrite (G _ Nd Ii). lia.
  - exists cs. split; [exact S1|]. split; [exact S2|]. split; [exact S3|]. split; [|exact S5].
    eapply Forall2_impl; [|exact S4]. intros i s [x [N [I [Nd [Hl [Hb _]]]]]]. exists x. auto 6.
Qed.
End Ball.

Definition ball_search_double {T : Type} := @ball_search_gap b_gap b_gap_fits T.
Definition ball_cover_double {T : Type} := @ball_cover_gap b_gap b_gap_fits T.
Definition knn_cover_double {T : Type} := @knn_cover_gap b_gap b_gap_fits T.
