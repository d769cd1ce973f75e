(** Covers in double precision and in exact arithmetic. *)
From Coq Require Import String Reals Lra Permutation Sorted.
From Flocq Require Import Core BinarySingleNaN.
From Verif Require Import Base BaseFacts ModelCore ModelVPTree ModelArith ModelCover ModelMetrics ModelFloat FloatFacts SpecDouble SpecMetric
  SpecMetrics SpecCover SpecCubical SpecNet SpecTuning TuningProp TuningCover CoverFacts CoverProp Relate FloatMetric FloatCover FloatNamed
  HeapFacts SpecCore SpecKnnDouble FloatKnn SpecFaithful.
Open Scope R_scope.

Section Pull.
Variable D : list R -> list R -> R.
Definition pulled (x y : list b64) : R := D (reals x) (reals y).
Definition stands (x : list b64) (v : list R) : Prop := v = reals x.

Lemma stands_list X : Forall2 stands X (map reals X).
Proof. induction X; simpl; constructor; auto. reflexivity. Qed.

Lemma opt_refl {A} (o : option A) : opt_rel eq o o.
Proof. destruct o; constructor; reflexivity. Qed.

Lemma ball_pulled (c : ball_cover R) X :
  ball_apply Rleb Rltb Rgap 0 pulled c X = ball_apply Rleb Rltb Rgap 0 D c (map reals X).
Proof.
  apply (ball_apply_rel stands eq).
  - intros x x' y y' -> ->. reflexivity.
  - intros; congruence.
  - intros; congruence.
  - intros; congruence.
  - reflexivity.
  - split; [reflexivity|]. do 2 (split; [reflexivity|]). apply opt_refl.
  - apply stands_list.
Qed.

Lemma knn_pulled (c : knn_cover R) X :
  knn_apply Rleb Rltb Rgap 0 pulled c X = knn_apply Rleb Rltb Rgap 0 D c (map reals X).
Proof.
  apply (knn_apply_rel stands eq).
  - intros x x' y y' -> ->. reflexivity.
  - intros; congruence.
  - intros; congruence.
  - intros; congruence.
  - reflexivity.
  - repeat (split; [reflexivity|]). reflexivity.
  - apply stands_list.
Qed.

Lemma pulled_metric m : @metric_on (list R) (dim m) D -> pseudo_metric_on (moderate m) pulled.
Proof.
  intro M. assert (dd : forall x, moderate m x -> dim m (reals x)).
  { intros x [Lx _]. unfold dim, reals. rewrite map_length. exact Lx. }
  unfold pulled. split; intros; apply M; auto.
Qed.
End Pull.

Section Same.
Variables (m : nat) (d : list b64 -> list b64 -> b64) (D : list R -> list R -> R) (X : list (list b64)) (B : R).
Hypothesis Hc : close_to m d D.
Hypothesis Hm : (Z.of_nat m <= 2 ^ 20)%Z.
Hypothesis HX : Forall (moderate m) X.
Hypothesis HB : within D B X.
Notation err := (rounding_error m B).

Lemma err_nonneg x : In x X -> 0 <= err.
Proof.
  intro Hx. destruct Hc as [_ [M _]]. rewrite Forall_forall in HX.
  assert (Dx : dim m (reals x)) by (destruct (HX x Hx) as [Lx _]; unfold dim, reals; rewrite map_length; exact Lx).
  pose proof (HB x x Hx Hx). pose proof (m_nonneg _ _ M _ _ Dx Dx). unfold rounding_error.
  pose proof (pos_INR m). pose proof (bpow_ge_0 radix2 (-52)). pose proof (bpow_ge_0 radix2 (-536)).
  apply Rplus_le_le_0_compat; [|apply Rmult_le_pos; lra].
  apply Rmult_le_pos; [apply Rmult_le_pos; lra|lra].
Qed.

Lemma within_cons x : In x X -> forall a b, In a (x :: X) -> In b (x :: X) -> D (reals a) (reals b) <= B.
Proof. intros Hx a b [<-|Ha] [<-|Hb]; apply HB; auto. Qed.

Lemma ball_faithful (c : ball_cover b64) (c' : ball_cover R) :
  magnitude (bc_radius c) -> opt_magnitude (bc_leaf_radius c) -> bc_radius c' = value (bc_radius c) ->
  (1 <= bc_leaf_capacity c)%nat -> tp_kind (bc_tree c) <> OtherKind ->
  (1 <= bc_leaf_capacity c')%nat -> tp_kind (bc_tree c') <> OtherKind ->
  clear_of D err (value (bc_radius c)) X ->
  same_sets (ball_apply b_le b_lt b_gap b_zero d c X) (ball_apply Rleb Rltb Rgap 0 D c' (map reals X)).
Proof.
  intros H1 H2 Er K1 K2 K1' K2' Cl. rewrite <- ball_pulled. pose proof Hc as [_ [M _]].
  destruct (HeapFacts.list_eq_nil_dec X) as [E0|Ne].
  { rewrite E0. unfold ball_apply, proximity_net, ball_fit, ball_fit_tree, enumerate. simpl combine.
    edestruct (@fit_empty (list b64) b64 b_le b_lt b_zero (tree_metric d) (tp_kind (bc_tree c))) as [t E]; [exact K2|]. rewrite E.
    edestruct (@fit_empty (list b64) R Rleb Rltb 0 (tree_metric (pulled D)) (tp_kind (bc_tree c'))) as [t' E']; [exact K2'|]. rewrite E'.
    simpl. split; [reflexivity|constructor]. }
  destruct (close_ball_search m d D c X Hc HX Ne H1 H2 K1 K2) as [s [E Q]].
  destruct (ball_search_real (moderate m) (pulled D) c' X (pulled_metric D m M) HX Ne K1' K2') as [s' [E' Q']].
  eapply proximity_net_same; [exact E|exact E'|]. intros x Hx. pose proof HX as HX'. rewrite Forall_forall in HX'.
  destruct (Q x (HX' x Hx)) as [l [A [N [Hin S]]]]. destruct (Q' x (HX' x Hx)) as [l' [A' [N' S']]]. rewrite A, A'. cbn.
  apply same_ids; [exact N|exact N'|]. intro i. rewrite S', Er. specialize (S B (within_cons x Hx)). split.
  - intro I. destruct (Hin i I) as [y [Ny _]]. exists y. split; [exact Ny|]. unfold pulled.
    pose proof (proj1 (S i y Ny) I). destruct (Cl x y Hx) as [L|L]; [eapply nth_error_In, Ny| |lra].
    assert (0 <= err) by (apply (err_nonneg x Hx)). lra.
  - intros [y [Ny L]]. unfold pulled in L. apply (S i y Ny).
    destruct (Cl x y Hx) as [L'|L']; [eapply nth_error_In, Ny|exact L'|].
    assert (0 <= err) by (apply (err_nonneg x Hx)). lra.
Qed.

(** The set of the nearest is the only possible answer. *)
Lemma clear_unique (f : nat -> R) n k near l : NoDup near -> length near = k -> NoDup l -> length l = k ->
  (forall i, In i near -> (i < n)%nat) -> (forall i, In i l -> (i < n)%nat) ->
  (forall i j, In i near -> ~ In j near -> (j < n)%nat -> f i + 6 * err < f j) ->
  (forall j i, In j l -> ~ In i l -> (i < n)%nat -> f j <= f i + 6 * err) ->
  forall i, In i l <-> In i near.
Proof.
  intros N1 L1 N2 L2 B1 B2 Cn Cl.
  assert (S : incl l near).
  { intros j Hj. destruct (in_dec Nat.eq_dec j near) as [I|I]; [exact I|]. exfalso.
    destruct (nodup_other l near j N2 N1 ltac:(congruence) Hj I) as [i [Ni Nl]].
    pose proof (Cn i j Ni I (B2 j Hj)). pose proof (Cl j i Hj Nl (B1 i Ni)). lra. }
  intro i. split; [apply S|]. intro Hi.
  eapply NoDup_length_incl; [exact N2| |exact S|exact Hi]. lia.
Qed.

Lemma knn_faithful (c : knn_cover b64) (c' : knn_cover R) :
  magnitude (kc_leaf_radius c) -> kc_neighbors c' = kc_neighbors c -> (1 <= kc_neighbors c)%nat ->
  tp_kind (kc_tree c) <> OtherKind -> tp_kind (kc_tree c') <> OtherKind ->
  clear_neighbours D err (kc_neighbors c) X ->
  same_sets (knn_apply b_le b_lt b_gap b_zero d c X) (knn_apply Rleb Rltb Rgap 0 D c' (map reals X)).
Proof.
  intros H1 Ek K1 K2 K2' Cl. rewrite <- knn_pulled. pose proof Hc as [_ [M _]].
  destruct (HeapFacts.list_eq_nil_dec X) as [E0|Ne].
  { rewrite E0. unfold knn_apply, proximity_net, knn_fit, knn_fit_tree, enumerate. simpl combine.
    edestruct (@fit_empty (list b64) b64 b_le b_lt b_zero (tree_metric d) (tp_kind (kc_tree c))) as [t E]; [exact K2|]. rewrite E.
    edestruct (@fit_empty (list b64) R Rleb Rltb 0 (tree_metric (pulled D)) (tp_kind (kc_tree c'))) as [t' E']; [exact K2'|]. rewrite E'.
    simpl. split; [reflexivity|constructor]. }
  destruct (close_knn_search m d D c X Hc Hm HX Ne H1 K1 K2) as [s [E Q]].
  destruct (knn_search_real (moderate m) (pulled D) c' X (pulled_metric D m M) HX Ne ltac:(lia) K2') as [s' [E' Q']].
  eapply proximity_net_same; [exact E|exact E'|]. intros x Hx. pose proof HX as HX'. rewrite Forall_forall in HX'.
  destruct (Q x (HX' x Hx)) as [l [A [N [L [Bd S]]]]]. destruct (Q' x (HX' x Hx)) as [l' [A' [N' [L' [Bd' S']]]]]. rewrite A, A'. cbn.
  specialize (S B (within_cons x Hx)). destruct (Cl x Hx) as [near [Nn [Ln [Bn Sn]]]].
  assert (e0 := err_nonneg x Hx).
  set (f := fun i => match nth_error X i with Some y => D (reals x) (reals y) | None => 0 end).
  assert (G : forall i, In i l <-> In i near).
  { eapply (clear_unique f (length X)); [exact Nn|exact Ln|exact N|exact L|exact Bn|exact Bd| |].
    - intros i j Hi Hj Bj. destruct (nth_error_ex X i (Bn i Hi)) as [y Ny]. destruct (nth_error_ex X j Bj) as [z Nz].
      unfold f. rewrite Ny, Nz. apply (Sn i j y z); auto.
    - intros j i Hj Hi Bi. destruct (nth_error_ex X i Bi) as [z Nz]. destruct (nth_error_ex X j (Bd j Hj)) as [y Ny].
      unfold f. rewrite Ny, Nz. apply (S j y i z); auto. }
  assert (G' : forall i, In i l' <-> In i near).
  { eapply (clear_unique f (length X)); [exact Nn|exact Ln|exact N'|congruence|exact Bn|exact Bd'| |].
    - intros i j Hi Hj Bj. destruct (nth_error_ex X i (Bn i Hi)) as [y Ny]. destruct (nth_error_ex X j Bj) as [z Nz].
      unfold f. rewrite Ny, Nz. apply (Sn i j y z); auto.
    - intros j i Hj Hi Bi. destruct (nth_error_ex X i Bi) as [z Nz]. destruct (nth_error_ex X j (Bd' j Hj)) as [y Ny].
      unfold f. rewrite Ny, Nz. pose proof (S' j i y z Hj Hi Ny Nz) as F. unfold pulled in F. lra. }
  apply same_ids; [exact N|exact N'|]. intro i. rewrite G, G'. reflexivity.
Qed.
End Same.

Section Graphs.
Context {S : Type}.
Variables (rows : list S) (clust : clustering S).
Hypothesis Hf : order_free clust.

Lemma named_ball_graph name m (c : ball_cover b64) (c' : ball_cover R) (X : list (list b64)) :
  In name three -> (Z.of_nat m <= 2 ^ 20)%Z -> Forall (moderate m) X ->
  magnitude (bc_radius c) -> opt_magnitude (bc_leaf_radius c) -> bc_radius c' = value (bc_radius c) ->
  (1 <= bc_leaf_capacity c)%nat -> tp_kind (bc_tree c) <> OtherKind ->
  (1 <= bc_leaf_capacity c')%nat -> tp_kind (bc_tree c') <> OtherKind ->
  exists d D,
    get_metric BA b_sqrt (Name name) [] = Ok (total_fn BA d) /\
    get_metric RA sqrt (Name name) [] = Ok (total_fn RA D) /\
    let computed := ball_apply b_le b_lt b_gap b_zero d c X in
    let exact := ball_apply Rleb Rltb Rgap 0 D c' (map reals X) in
    forall B, within D B X -> clear_of D (rounding_error m B) (value (bc_radius c)) X ->
      same_sets computed exact /\
      (forall g, mapper_graph rows exact clust = Ok g ->
         exists g', mapper_graph rows computed clust = Ok g' /\ same_graph g g') /\
      (forall comps, mapper_connected_components rows exact clust = Ok comps ->
         exists comps', mapper_connected_components rows computed clust = Ok comps' /\ same_partition comps comps').
Proof.
  intros Hn Hm HX H1 H2 Er K1 K2 K1' K2'. destruct (named_double name m Hn Hm) as [d [D [G1 [G2 C]]]].
  exists d, D. do 2 (split; [assumption|]). cbv zeta. intros B HB Cl.
  assert (Sm := ball_faithful m d D X B C HX HB c c' H1 H2 Er K1 K2 K1' K2' Cl).
  assert (Sm' : same_sets (ball_apply Rleb Rltb Rgap 0 D c' (map reals X)) (ball_apply b_le b_lt b_gap b_zero d c X)).
  { destruct Sm as [E F]. split; [congruence|]. clear - F. induction F; constructor; auto. apply Permutation_sym. assumption. }
  assert (Nd : sets_nodup (yields (ball_apply Rleb Rltb Rgap 0 D c' (map reals X)))).
  { rewrite <- ball_pulled. apply (ball_nodup (moderate m)); auto. apply pulled_metric, C. }
  split; [exact Sm|]. split; [exact (graphs_same rows clust Hf _ _ Sm' Nd)|exact (components_same rows clust Hf _ _ Sm' Nd)].
Qed.

Lemma named_knn_graph name m (c : knn_cover b64) (c' : knn_cover R) (X : list (list b64)) :
  In name three -> (Z.of_nat m <= 2 ^ 20)%Z -> Forall (moderate m) X ->
  magnitude (kc_leaf_radius c) -> kc_neighbors c' = kc_neighbors c -> (1 <= kc_neighbors c)%nat ->
  tp_kind (kc_tree c) <> OtherKind -> tp_kind (kc_tree c') <> OtherKind ->
  exists d D,
    get_metric BA b_sqrt (Name name) [] = Ok (total_fn BA d) /\
    get_metric RA sqrt (Name name) [] = Ok (total_fn RA D) /\
    let computed := knn_apply b_le b_lt b_gap b_zero d c X in
    let exact := knn_apply Rleb Rltb Rgap 0 D c' (map reals X) in
    forall B, within D B X -> clear_neighbours D (rounding_error m B) (kc_neighbors c) X ->
      same_sets computed exact /\
      (forall g, mapper_graph rows exact clust = Ok g ->
         exists g', mapper_graph rows computed clust = Ok g' /\ same_graph g g') /\
      (forall comps, mapper_connected_components rows exact clust = Ok comps ->
         exists comps', mapper_connected_components rows computed clust = Ok comps' /\ same_partition comps comps').
Proof.
  intros Hn Hm HX H1 Ek K1 K2 K2'. destruct (named_double name m Hn Hm) as [d [D [G1 [G2 C]]]].
  exists d, D. do 2 (split; [assumption|]). cbv zeta. intros B HB Cl.
  assert (Sm := knn_faithful m d D X B C Hm HX HB c c' H1 Ek K1 K2 K2' Cl).
  assert (Sm' : same_sets (knn_apply Rleb Rltb Rgap 0 D c' (map reals X)) (knn_apply b_le b_lt b_gap b_zero d c X)).
  { destruct Sm as [E F]. split; [congruence|]. clear - F. induction F; constructor; auto. apply Permutation_sym. assumption. }
  assert (Nd : sets_nodup (yields (knn_apply Rleb Rltb Rgap 0 D c' (map reals X)))).
  { rewrite <- knn_pulled. apply (knn_nodup (moderate m)); auto; [apply pulled_metric, C|lia]. }
  split; [exact Sm|]. split; [exact (graphs_same rows clust Hf _ _ Sm' Nd)|exact (components_same rows clust Hf _ _ Sm' Nd)].
Qed.
End Graphs.
