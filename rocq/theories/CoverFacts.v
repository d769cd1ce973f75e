(** Internal lemmas on BallCover and KNNCover. *)
From Verif Require Import Base BaseFacts ModelCore SpecNet CoreProp ModelQuickselect ModelVPTree SpecVPTree VPSearchFacts
  VPProp ModelCover SpecCover SpecMetric.
From Coq Require Import Reals Lra Sorted.
Open Scope nat_scope.

(** *** enumerate *)
Lemma enumerate_from {T} (X : list T) : forall s z x,
  In (z, x) (combine (map Z.of_nat (seq s (length X))) X) <->
  exists i, z = Z.of_nat (s + i) /\ nth_error X i = Some x.
Proof.
  induction X as [|a X IH]; intros s z x; simpl.
  - split; [tauto|]. intros [[|i] [_ H]]; discriminate.
  - split.
    + intros [H|H].
      * injection H as <- <-. exists 0. rewrite Nat.add_0_r. auto.
      * apply IH in H as [i [-> H]]. exists (S i). split; [f_equal; lia|exact H].
    + intros [[|i] [-> H]]; simpl in H.
      * left. injection H as ->. rewrite Nat.add_0_r. reflexivity.
      * right. apply IH. exists i. split; [f_equal; lia|exact H].
Qed.

Lemma enumerate_in {T} (X : list T) z x :
  In (z, x) (enumerate X) <-> exists i, z = Z.of_nat i /\ nth_error X i = Some x.
Proof. apply (enumerate_from X 0). Qed.

Lemma combine_fst {A B} (l : list A) : forall l' : list B, length l = length l' -> map fst (combine l l') = l.
Proof. induction l as [|a l IH]; intros [|b l'] H; try discriminate; auto. simpl. rewrite IH; auto. Qed.

Lemma ids_enumerate {T} (X : list T) : ids_of (enumerate X) = seq 0 (length X).
Proof.
  unfold ids_of, enumerate. rewrite <- (map_map fst Z.to_nat), combine_fst, map_map.
  - rewrite <- (map_id (seq 0 (length X))) at 2. apply map_ext. intro. apply Nat2Z.id.
  - rewrite map_length, seq_length. reflexivity.
Qed.

Lemma enumerate_length {T} (X : list T) : length (enumerate X) = length X.
Proof. unfold enumerate. rewrite combine_length, map_length, seq_length. lia. Qed.

Lemma ids_in {T} (X : list T) l i :
  (forall p, In p l -> In p (enumerate X)) ->
  In i (ids_of l) <-> exists x, nth_error X i = Some x /\ In (Z.of_nat i, x) l.
Proof.
  intro H. unfold ids_of. rewrite in_map_iff. split.
  - intros [[z x] [E I]]. simpl in E. pose proof (H _ I) as I2. apply enumerate_in in I2 as [j [-> N]].
    rewrite Nat2Z.id in E. subst. eauto.
  - intros [x [N I]]. exists (Z.of_nat i, x). simpl. rewrite Nat2Z.id. auto.
Qed.

Lemma nodup_map_filter {A B} (f : A -> B) p (l : list A) : NoDup (map f l) -> NoDup (map f (filter p l)).
Proof.
  induction l as [|a l IH]; simpl; auto. intro H. inversion H as [|b m H1 H2]; subst.
  destruct (p a); simpl; auto. constructor; auto. intro I. apply H1.
  apply in_map_iff in I as [c [E I]]. apply filter_In in I as [I _]. rewrite <- E. apply in_map, I.
Qed.

Section Facts.
Context {T D : Type}.
Variable metric : T -> T -> D.
Variables leb ltb : D -> D -> bool.
Variable gap : D -> D -> D.
Variable zero : D.
Hypothesis Ho : order_ok leb ltb gap.

(** All trees, all kinds. *)
Lemma any_tree_exact {T' : Type} (m : T' -> T' -> D) kind (par : vparams D) (X : list T') :
  1 <= leaf_capacity par -> X <> [] -> kind <> OtherKind ->
  exists t, vptree m leb ltb zero kind par X = Ok t /\
    forall q, searchable m leb ltb gap X q ->
      (forall eps inclusive, exists res, ball_search m leb ltb gap t q eps inclusive = Ok res /\
         ball_answer m leb ltb X q eps inclusive res) /\
      (forall k, exists res, knn_search m leb ltb gap zero t q k = Ok res /\
         knn_answer m leb X q k res).
Proof.
  intros Hc Hn Hk. destruct kind; [| |congruence].
  - destruct (flat_ball_exact m leb ltb gap zero par X Ho Hc Hn) as [t [E H]].
    destruct (flat_knn_exact m leb ltb gap zero par X Ho Hc Hn) as [t' [E' H']].
    rewrite E in E'. injection E' as <-. exists t. split; [exact E|]. intros q [_ Hp]. auto.
  - destruct (hier_ball_exact m leb ltb gap zero par X Ho Hc) as [t [E H]].
    destruct (hier_knn_exact m leb ltb gap zero par X Ho Hc) as [t' [E' H']].
    rewrite E in E'. injection E' as <-. exists t. split; [exact E|]. intros q [Hs Hp]. auto.
Qed.

Lemma searchable_tree X q z :
  searchable metric leb ltb gap X q ->
  searchable (tree_metric metric) leb ltb gap (enumerate X) (z, q).
Proof.
  assert (I : forall p, In p (enumerate X) -> In (snd p) X).
  { intros [w x] H. apply enumerate_in in H as [i [_ H]]. eapply nth_error_In, H. }
  intros [Hs Hp]. split.
  - intros v Hv. unfold tree_metric, pullback. simpl. apply Hs, I, Hv.
  - intros v y x Hv Hy Hx H. unfold tree_metric, pullback in *. simpl in *.
    apply (Hp (snd v) (snd y) (snd x)); auto.
Qed.

Lemma ball_ids X r q res :
  ball_answer (tree_metric metric) leb ltb (enumerate X) ((-1)%Z, q) r false res ->
  open_ball metric ltb X r q (ids_of res).
Proof.
  intro P. unfold ball_answer in P.
  assert (Hsub : forall p, In p res -> In p (enumerate X)).
  { intros p Hp. eapply Permutation_in in Hp; [|exact P]. apply filter_In in Hp. tauto. }
  split.
  - unfold ids_of. eapply Permutation_NoDup; [apply Permutation_map, Permutation_sym, P|].
    apply nodup_map_filter. fold (ids_of (enumerate X)). rewrite ids_enumerate. apply seq_NoDup.
  - intro i. rewrite (ids_in X res i Hsub). split.
    + intros [x [N I]]. exists x. split; auto. eapply Permutation_in in I; [|exact P].
      apply filter_In in I as [_ I]. exact I.
    + intros [x [N I]]. exists x. split; auto. eapply Permutation_in; [apply Permutation_sym, P|].
      apply filter_In. split; [apply enumerate_in; eauto|exact I].
Qed.

Lemma knn_ids X k q res :
  knn_answer (tree_metric metric) leb (enumerate X) ((-1)%Z, q) k res ->
  nearest metric leb X k q (ids_of res).
Proof.
  intros [L [rest [P H]]].
  assert (Hsub : forall p, In p res -> In p (enumerate X)).
  { intros p Hp. eapply Permutation_in; [apply Permutation_sym, P|]. apply in_or_app. auto. }
  assert (PI : Permutation (seq 0 (length X)) (ids_of res ++ ids_of rest)).
  { rewrite <- ids_enumerate. unfold ids_of. rewrite <- map_app. apply Permutation_map, P. }
  split; [|split; [|split]].
  - assert (N : NoDup (ids_of res ++ ids_of rest)) by (eapply Permutation_NoDup; [exact PI|apply seq_NoDup]).
    clear - N. induction (ids_of res) as [|a l IH]; [constructor|].
    inversion N as [|b m N1 N2]; subst. constructor; auto. intro I. apply N1, in_or_app. auto.
  - unfold ids_of. rewrite map_length, L, enumerate_length. reflexivity.
  - intros i Hi. assert (I : In i (seq 0 (length X))).
    { eapply Permutation_in; [apply Permutation_sym, PI|]. apply in_or_app. auto. }
    apply in_seq in I. lia.
  - intros i j x y Hi Hj Nx Ny.
    apply (ids_in X res i Hsub) in Hi as [x' [Nx' Ix]]. rewrite Nx in Nx'. injection Nx' as <-.
    assert (Iy : In (Z.of_nat j, y) (enumerate X)) by (apply enumerate_in; eauto).
    eapply Permutation_in in Iy; [|exact P]. apply in_app_or in Iy as [Iy|Iy].
    + exfalso. apply Hj. apply (ids_in X res j Hsub). eauto.
    + apply (H _ _ Ix Iy).
Qed.

Lemma ball_fit_ok (c : ball_cover D) X :
  1 <= bc_leaf_capacity c -> X <> [] -> tp_kind (bc_tree c) <> OtherKind ->
  exists search, ball_fit leb ltb gap zero metric c X = Ok search /\
    forall q, searchable metric leb ltb gap X q ->
      exists ids, search q = Ok ids /\ open_ball metric ltb X (bc_radius c) q ids.
Proof.
  intros Hc Hn Hk. unfold ball_fit, ball_fit_tree.
  assert (Hn' : enumerate X <> []).
  { intro E. apply Hn. apply length_zero_iff_nil. rewrite <- enumerate_length, E. reflexivity. }
  edestruct (any_tree_exact (tree_metric metric) (tp_kind (bc_tree c))) as [t [E H]];
    [|exact Hn'|exact Hk|rewrite E; cbn [bind]].
  { exact Hc. }
  eexists. split; [reflexivity|]. intros q Hq.
  destruct (H _ (searchable_tree X q (-1)%Z Hq)) as [HB _].
  destruct (HB (bc_radius c) false) as [res [E1 A]].
  exists (ids_of res). unfold ball_query. rewrite E1. split; [reflexivity|]. apply ball_ids, A.
Qed.

Lemma knn_fit_ok (c : knn_cover D) X :
  1 <= kc_neighbors c -> X <> [] -> tp_kind (kc_tree c) <> OtherKind ->
  exists search, knn_fit leb ltb gap zero metric c X = Ok search /\
    forall q, searchable metric leb ltb gap X q ->
      exists ids, search q = Ok ids /\ nearest metric leb X (kc_neighbors c) q ids.
Proof.
  intros Hc Hn Hk. unfold knn_fit, knn_fit_tree.
  assert (Hn' : enumerate X <> []).
  { intro E. apply Hn. apply length_zero_iff_nil. rewrite <- enumerate_length, E. reflexivity. }
  edestruct (any_tree_exact (tree_metric metric) (tp_kind (kc_tree c))) as [t [E H]];
    [|exact Hn'|exact Hk|rewrite E; cbn [bind]].
  { unfold nat_or. simpl. destruct (kc_leaf_capacity c) as [[|m]|]; lia. }
  eexists. split; [reflexivity|]. intros q Hq.
  destruct (H _ (searchable_tree X q (-1)%Z Hq)) as [_ HK].
  destruct (HK (kc_neighbors c)) as [res [E1 A]].
  exists (ids_of res). unfold knn_query. rewrite E1. split; [reflexivity|]. apply knn_ids, A.
Qed.

(** Trees on an empty dataset are built. *)
Lemma fit_empty m kind (par : vparams D) : kind <> OtherKind ->
  exists t, vptree m leb ltb zero kind par (@nil (Z * T)) = Ok t.
Proof. intro Hk. destruct kind; [| |congruence]; eexists; reflexivity. Qed.
End Facts.

(** A net over a search that answers on every point of the dataset. *)
Lemma net_total {S : Type} (search : S -> res (list nat)) (X : list S) :
  (forall x, In x X -> exists s, search x = Ok s) ->
  forall fit, fit X = Ok search -> stops (proximity_net fit X) = None.
Proof.
  intros H fit E. destruct (stops (proximity_net fit X)) as [e|] eqn:Es; [|reflexivity].
  destruct (net_stops fit X search E e Es) as [j [x [N E2]]].
  destruct (H x (nth_error_In _ _ N)) as [s E3]. congruence.
Qed.
