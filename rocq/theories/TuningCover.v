(** Covers whose parameters differ only in the search tree. *)
From Coq Require Import Permutation Reals Lra.
From Verif Require Import Base BaseFacts HeapFacts ModelCore SpecCore SpecNet CoreLabels CoreProp ModelVPTree ModelArith ModelCover
  SpecCover SpecMetric SpecCubical CoverFacts CoverProp CubicalFacts CubicalProp VPProp SpecTuning TuningProp.
Open Scope R_scope.

Section Metric.
Context {T : Type}.
Variable P : T -> Prop.
Variable d : T -> T -> R.
Hypothesis Hd : pseudo_metric_on P d.
Variable X : list T.
Hypothesis HX : Forall P X.

Lemma ball_same (c c' : ball_cover R) : bc_radius c = bc_radius c' ->
  (1 <= bc_leaf_capacity c)%nat -> tp_kind (bc_tree c) <> OtherKind ->
  (1 <= bc_leaf_capacity c')%nat -> tp_kind (bc_tree c') <> OtherKind ->
  same_sets (ball_apply Rleb Rltb Rgap 0 d c X) (ball_apply Rleb Rltb Rgap 0 d c' X).
Proof.
  intros Er H1 H2 H1' H2'. destruct (list_eq_nil_dec X) as [->|Ne].
  { unfold ball_apply, proximity_net, ball_fit, ball_fit_tree, enumerate. simpl combine.
    edestruct (@fit_empty T R Rleb Rltb 0 (tree_metric d) (tp_kind (bc_tree c))) as [t E]; [exact H2|]. rewrite E.
    edestruct (@fit_empty T R Rleb Rltb 0 (tree_metric d) (tp_kind (bc_tree c'))) as [t' E']; [exact H2'|]. rewrite E'.
    simpl. split; [reflexivity|constructor]. }
  destruct (ball_search_real P d c X Hd HX Ne H1 H2) as [s [E Q]]. destruct (ball_search_real P d c' X Hd HX Ne H1' H2') as [s' [E' Q']].
  eapply proximity_net_same; [exact E|exact E'|]. intros x Hx. rewrite Forall_forall in HX. specialize (HX x Hx).
  destruct (Q x HX) as [l [A [N B]]]. destruct (Q' x HX) as [l' [A' [N' B']]]. rewrite A, A'. cbn.
  apply same_ids; [exact N|exact N'|]. intro i. rewrite B, B', Er. reflexivity.
Qed.

(** Nearest neighbours are unique when no two points are equally far. *)
Definition no_ties : Prop := forall x i j y z, In x X -> i <> j ->
  nth_error X i = Some y -> nth_error X j = Some z -> d x y <> d x z.

Lemma nodup_other (l l' : list nat) i : NoDup l -> NoDup l' -> length l = length l' -> In i l -> ~ In i l' ->
  exists j, In j l' /\ ~ In j l.
Proof.
  intros N N' L I I'. destruct (Exists_dec (fun j => ~ In j l) l') as [E|E].
  - intro j. destruct (in_dec Nat.eq_dec j l); [right; tauto|left; assumption].
  - apply Exists_exists in E as [j [A B]]. eauto.
  - exfalso. apply I'. assert (incl l' l). { intros j J. destruct (in_dec Nat.eq_dec j l); [assumption|]. exfalso. apply E, Exists_exists. eauto. }
    eapply NoDup_length_incl; [exact N'| |exact H|exact I]. lia.
Qed.

Lemma knn_same (c c' : knn_cover R) : kc_neighbors c = kc_neighbors c' -> no_ties ->
  (1 <= kc_neighbors c)%nat -> tp_kind (kc_tree c) <> OtherKind -> tp_kind (kc_tree c') <> OtherKind ->
  same_sets (knn_apply Rleb Rltb Rgap 0 d c X) (knn_apply Rleb Rltb Rgap 0 d c' X).
Proof.
  intros Er Ht H1 H2 H2'. destruct (list_eq_nil_dec X) as [->|Ne].
  { unfold knn_apply, proximity_net, knn_fit, knn_fit_tree, enumerate. simpl combine.
    edestruct (@fit_empty T R Rleb Rltb 0 (tree_metric d) (tp_kind (kc_tree c))) as [t E]; [exact H2|]. rewrite E.
    edestruct (@fit_empty T R Rleb Rltb 0 (tree_metric d) (tp_kind (kc_tree c'))) as [t' E']; [exact H2'|]. rewrite E'.
    simpl. split; [reflexivity|constructor]. }
  destruct (knn_search_real P d c X Hd HX Ne H1 H2) as [s [E Q]]. destruct (knn_search_real P d c' X Hd HX Ne) as [s' [E' Q']]; [lia|assumption|].
  eapply proximity_net_same; [exact E|exact E'|]. intros x Hx. pose proof HX as HX'. rewrite Forall_forall in HX'. specialize (HX' x Hx).
  destruct (Q x HX') as [l [A [N [L [B C]]]]]. destruct (Q' x HX') as [l' [A' [N' [L' [B' C']]]]]. rewrite A, A'. cbn.
  assert (half : forall u v, NoDup u -> NoDup v -> length u = length v ->
     (forall i, In i u -> (i < length X)%nat) -> (forall i, In i v -> (i < length X)%nat) ->
     (forall i j y z, In i u -> ~ In j u -> nth_error X i = Some y -> nth_error X j = Some z -> d x y <= d x z) ->
     (forall i j y z, In i v -> ~ In j v -> nth_error X i = Some y -> nth_error X j = Some z -> d x y <= d x z) ->
     forall i, In i u -> In i v).
  { intros u v Nu Nv Luv Bu Bv Cu Cv i I. destruct (in_dec Nat.eq_dec i v) as [J|J]; [exact J|]. exfalso.
    destruct (nodup_other u v i Nu Nv Luv I J) as [j [Jv Ju]].
    destruct (nth_error_ex X i (Bu i I)) as [y Ny]. destruct (nth_error_ex X j (Bv j Jv)) as [z Nz].
    pose proof (Cu i j y z I Ju Ny Nz). pose proof (Cv j i z y Jv J Nz Ny).
    apply (Ht x i j y z Hx); [congruence|exact Ny|exact Nz|lra]. }
  apply same_ids; [exact N|exact N'|]. intro i. split; apply half; auto; congruence.
Qed.
End Metric.

Lemma nodup_forall2 {B} (R : B -> list nat -> Prop) l sets : Forall2 R l sets -> (forall b s, R b s -> NoDup s) -> sets_nodup sets.
Proof. intros F H. induction F; constructor; eauto. Qed.

Lemma ball_nodup {T} (P : T -> Prop) d X (c : ball_cover R) : pseudo_metric_on P d -> Forall P X ->
  (1 <= bc_leaf_capacity c)%nat -> tp_kind (bc_tree c) <> OtherKind -> sets_nodup (yields (ball_apply Rleb Rltb Rgap 0 d c X)).
Proof.
  intros Hd HX H1 H2. destruct (Rlt_dec 0 (bc_radius c)) as [Hr|Hr].
  - destruct (ball_apply_real P d c X Hd HX Hr H1 H2) as [cs [_ [_ [_ [F _]]]]]. eapply nodup_forall2; [exact F|].
    intros i s [x [_ [N _]]]. exact N.
  - rewrite (ball_apply_nonpos P d c X Hd HX) by (lra || assumption). constructor.
Qed.

Lemma knn_nodup {T} (P : T -> Prop) d X (c : knn_cover R) : pseudo_metric_on P d -> Forall P X ->
  (1 <= kc_neighbors c)%nat -> tp_kind (kc_tree c) <> OtherKind -> sets_nodup (yields (knn_apply Rleb Rltb Rgap 0 d c X)).
Proof.
  intros Hd HX H1 H2. destruct (knn_apply_net d Rleb Rltb Rgap 0 c X R_order_ok H1 H2) as [cs [_ [_ [F _]]]].
  - intros x I. rewrite Forall_forall in HX. apply (pseudo_on_searchable P d); auto. apply Forall_forall, HX.
  - eapply nodup_forall2; [exact F|]. intros i s [x [_ [N _]]]. exact N.
Qed.

(** *** Cubical covers *)
Lemma landmark_loop_same (s s' : list R -> res (list nat)) lm :
  (forall p, In p lm -> same_answer (s (snd p)) (s' (snd p))) ->
  same_sets (landmark_loop RA s lm) (landmark_loop RA s' lm).
Proof.
  induction lm as [|[k x] lm IH]; intro H; simpl; [split; [reflexivity|constructor]|].
  destruct IH as [E F]; [intros p Hp; apply H; right; exact Hp|].
  specialize (H (k, x) (or_introl eq_refl)). simpl in H. unfold same_answer in H.
  destruct (s x) as [l|e], (s' x) as [l'|e']; try contradiction; [|subst; split; [reflexivity|constructor]].
  destruct l as [|a l], l' as [|a' l']; [split; assumption|apply Permutation_length in H; discriminate|apply Permutation_length in H; discriminate|].
  split; [exact E|]. simpl. constructor; assumption.
Qed.

Lemma cubical_same m eps X (c c' : cubical RA) ov alg : (1 <= m)%nat -> (1 <= cu_n_intervals RA c)%Z -> 0 <= eps ->
  Forall (fun x => length x = m) X -> X <> [] -> overlap_is m (cu_overlap_frac RA c) ov -> 0 < ov < 1 ->
  cu_n_intervals RA c = cu_n_intervals RA c' -> cu_overlap_frac RA c = cu_overlap_frac RA c' ->
  (1 <= cu_leaf_capacity RA c)%nat -> tp_kind (cu_tree RA c) <> OtherKind ->
  (1 <= cu_leaf_capacity RA c')%nat -> tp_kind (cu_tree RA c') <> OtherKind ->
  same_sets (cubical_apply RA eps alg c X) (cubical_apply RA eps alg c' X).
Proof.
  intros Hm Hn He Hrows HX Hov Ho En Eo H1 H2 H1' H2'.
  destruct (column_bounds_exist m X HX) as [lo [hi Hb]].
  destruct (fit_state_ok m eps X lo hi c ov Hm Hn He Hrows HX Hb Hov H1 H2 Ho) as [s [E Q]].
  destruct (fit_state_ok m eps X lo hi c' ov Hm ltac:(congruence) He Hrows HX Hb ltac:(congruence) H1' H2' Ho) as [s' [E' Q']].
  rewrite <- En in E', Q'. set (gb := grid_bounds m (cu_n_intervals RA c) eps lo hi) in *.
  assert (Hsame : forall x, In x X -> same_answer (cubical_query RA (gb, s) x) (cubical_query RA (gb, s') x)).
  { intros x Hx. rewrite Forall_forall in Hrows. specialize (Hrows x Hx). destruct (Q x Hrows) as [l [A [N B]]].
    destruct (Q' x Hrows) as [l' [A' [N' B']]]. rewrite A, A'. cbn. apply same_ids; [exact N|exact N'|]. intro i. rewrite B, B'. reflexivity. }
  destruct alg; cbn [cubical_apply].
  - unfold proximity_cubical_apply. eapply proximity_net_same; [| |exact Hsame].
    + unfold cubical_fit. rewrite E. destruct X; [congruence|reflexivity].
    + unfold cubical_fit. rewrite E'. destruct X; [congruence|reflexivity].
  - unfold standard_cubical_apply. rewrite E, E'. destruct X as [|x0 X0] eqn:EX; [congruence|]. rewrite <- EX in *.
    apply landmark_loop_same. intros p Hp. apply Hsame.
    change (landmarks RA gb X) with (lms (offset RA gb) X) in Hp. destruct (lms_ok (offset RA gb) X) as [_ [L2 _]]. apply L2, Hp.
  - split; [reflexivity|constructor].
Qed.

Lemma cubical_nodup m eps X (c : cubical RA) ov alg : (1 <= m)%nat -> (1 <= cu_n_intervals RA c)%Z -> 0 <= eps <= 1 ->
  Forall (fun x => length x = m) X -> X <> [] -> overlap_is m (cu_overlap_frac RA c) ov -> 0 < ov < 1 ->
  (1 <= cu_leaf_capacity RA c)%nat -> tp_kind (cu_tree RA c) <> OtherKind ->
  sets_nodup (yields (cubical_apply RA eps alg c X)).
Proof.
  intros Hm Hn He Hrows HX Hov Ho H1 H2. destruct (column_bounds_exist m X HX) as [lo [hi Hb]].
  destruct alg; [| |constructor].
  all: edestruct (cubical_covers m eps X lo hi c ov) as [_ [_ H]]; [..|apply Forall_forall; intros s Hs; destruct (H s Hs) as [_ [x [k [_ [_ [N _]]]]]]; exact N]; tauto || assumption || discriminate || lra.
Qed.
