(** Covers built with a metric that may raise, and the calls they make. *)
From Verif Require Import Base SpecArray BaseFacts ModelCore ModelQuickselect ModelHeap ModelVPTree SpecVPTree
  ModelCover SpecCover VPProp CoverFacts CoverProp ModelCalls CallsFacts CallsCost.
Open Scope nat_scope.

(** [g] is [g'], or stopped early by an exception as described. *)
Definition prefix_of (stopped : exn -> Prop) (g g' : gen (list nat)) : Prop :=
  g = g' \/ exists e rest, stops g = Some e /\ stopped e /\ yields g' = yields g ++ rest.

Section Net.
Context {S U D : Type}.
Variable ev : U -> U -> res D.
Variable P : U -> U -> Prop.
Variable search : S -> @M U (list nat).
Variable search' : S -> res (list nat).

Lemma net_prefix xs : forall i covered w,
  (forall x, In x xs -> tracks ev P any (search x) (search' x)) ->
  prefix_of (raised ev P) (fst (net_loop_c search i xs covered w)) (net_loop search' i xs covered).
Proof.
  induction xs as [|x xs IH]; intros i covered w H; simpl; [left; reflexivity|].
  destruct (existsb (Nat.eqb i) covered); [apply IH; intros; apply H; right; assumption|].
  pose proof (H x (or_introl eq_refl) w) as Hx. destruct (search x w) as [[ids w']|e].
  - destruct Hx as [-> _]. specialize (IH (Datatypes.S i) (ids ++ covered) w' (fun y Hy => H y (or_intror Hy))).
    destruct ids as [|a ids]; [exact IH|]. simpl. destruct IH as [IH|[e [rest [E1 [E2 E3]]]]].
    + left. simpl in IH. rewrite <- IH. reflexivity.
    + right. exists e, rest. simpl. split; [exact E1|]. split; [exact E2|]. simpl in E3. rewrite E3. reflexivity.
  - destruct Hx as [->|Hx]; [left; reflexivity|]. right.
    exists e. simpl. destruct (search' x) as [[|a ids]|e']; simpl; eauto.
Qed.

End Net.

Section NetCost.
Context {S U : Type}.
Variable search : S -> @M U (list nat).

Lemma net_cost c xs : forall i covered w,
  (forall x, In x xs -> cost c (search x)) ->
  length (snd (net_loop_c search i xs covered w)) <= c * length xs + length w.
Proof.
  induction xs as [|x xs IH]; intros i covered w H; simpl; [lia|].
  assert (H' : forall y, In y xs -> cost c (search y)) by (intros; apply H; right; assumption).
  destruct (existsb (Nat.eqb i) covered).
  - specialize (IH (Datatypes.S i) covered w H'). lia.
  - pose proof (H x (or_introl eq_refl) w) as Hx. destruct (search x w) as [[ids w']|e]; [|simpl; lia].
    specialize (Hx ids w' eq_refl). specialize (IH (Datatypes.S i) (ids ++ covered) w' H').
    destruct ids; simpl in *; lia.
Qed.

(** Counted by the open sets, if no answer is empty. *)
Lemma net_cost_yields c xs : forall i covered w,
  (forall x, In x xs -> cost c (search x)) ->
  (forall x w w', In x xs -> search x w <> Ok ([], w')) ->
  length (snd (net_loop_c search i xs covered w)) <=
  c * length (yields (fst (net_loop_c search i xs covered w))) + length w.
Proof.
  induction xs as [|x xs IH]; intros i covered w H N; simpl; [lia|].
  assert (H' : forall y, In y xs -> cost c (search y)) by (intros; apply H; right; assumption).
  assert (N' : forall y v v', In y xs -> search y v <> Ok ([], v')) by (intros; apply N; right; assumption).
  destruct (existsb (Nat.eqb i) covered).
  - apply IH; assumption.
  - pose proof (H x (or_introl eq_refl) w) as Hx. pose proof (N x w) as Nx.
    destruct (search x w) as [[ids w']|e]; [|simpl; lia].
    specialize (Hx ids w' eq_refl). specialize (IH (Datatypes.S i) (ids ++ covered) w' H' N').
    destruct ids as [|a ids]; [exfalso; eapply Nx; [left; reflexivity|reflexivity]|]. simpl in *. lia.
Qed.
End NetCost.

Section CoverCalls.
Context {T D : Type}.
Variable ev : T -> T -> res D.
Variable metric : T -> T -> D.
Variables leb ltb : D -> D -> bool.
Variable gap : D -> D -> D.
Variable zero : D.
Hypothesis Hag : forall x y d, ev x y = Ok d -> metric x y = d.

Lemma tree_agrees : forall p q d, tree_ev ev p q = Ok d -> tree_metric metric p q = d.
Proof. intros p q d H. unfold tree_metric, pullback. apply Hag, H. Qed.

(** A call of the tree's metric on entries of the dataset is a call of the metric on points. *)
Definition pair_in (X : list T) (x y : T) : Prop := In x X /\ In y X.

Lemma enumerate_snd (X : list T) p : In p (enumerate X) -> In (snd p) X.
Proof. destruct p as [z x]. intro H. apply enumerate_in in H as [i [_ H]]. eapply nth_error_In, H. Qed.

Lemma raised_both X e : raised (tree_ev ev) (both (enumerate X)) e -> raised ev (pair_in X) e.
Proof.
  intros [p [q [[H1 H2] E]]]. exists (snd p), (snd q). split; [|exact E].
  split; apply enumerate_snd; assumption.
Qed.
Lemma raised_query X x e : In x X ->
  raised (tree_ev ev) (with_q (enumerate X) ((-1)%Z, x)) e -> raised ev (pair_in X) e.
Proof.
  intros Hx [p [q [H E]]]. exists (snd p), (snd q). split; [|exact E].
  destruct H as [[-> H]|[H ->]]; simpl; split; auto; apply enumerate_snd; assumption.
Qed.

Lemma tracks_raised {A} (P P' : Z * T -> Z * T -> Prop) (Q : A -> Prop) m r :
  (forall p q, P p q -> P' p q) -> tracks (tree_ev ev) P Q m r -> tracks (tree_ev ev) P' Q m r.
Proof. intros H. apply tracks_weaken; auto. Qed.

Definition points_in (X : list T) (p q : Z * T) : Prop := In (snd p) X /\ In (snd q) X.

Lemma tracks_ball_query (c : ball_cover D) X t x : In x X -> tree_of (enumerate X) t ->
  tracks (tree_ev ev) (points_in X) any (ball_query_c ev leb ltb gap c t x)
    (ball_query leb ltb gap metric c t x).
Proof.
  intros Hx Ht. unfold ball_query_c, ball_query.
  apply tracks_bind with (Q := any).
  - apply tracks_raised with (P := with_q (enumerate X) ((-1)%Z, x));
      [|apply tracks_ball_search; [exact tree_agrees|exact Ht]].
    intros p q [[-> H]|[H ->]]; split; simpl; auto; apply enumerate_snd; assumption.
  - intros r _. apply tracks_ret. exact I.
Qed.

Lemma tracks_knn_query (c : knn_cover D) X t x : In x X -> tree_of (enumerate X) t ->
  tracks (tree_ev ev) (points_in X) any (knn_query_c ev leb ltb gap zero c t x)
    (knn_query leb ltb gap zero metric c t x).
Proof.
  intros Hx Ht. unfold knn_query_c, knn_query.
  apply tracks_bind with (Q := any).
  - apply tracks_raised with (P := with_q (enumerate X) ((-1)%Z, x));
      [|apply tracks_knn_search; [exact tree_agrees|exact Ht]].
    intros p q [[-> H]|[H ->]]; split; simpl; auto; apply enumerate_snd; assumption.
  - intros r _. apply tracks_ret. exact I.
Qed.

Lemma raised_points X e : raised (tree_ev ev) (points_in X) e -> raised ev (pair_in X) e.
Proof. intros [p [q [[H1 H2] E]]]. exists (snd p), (snd q). split; [split; assumption|exact E]. Qed.

Lemma prefix_mono (s s' : exn -> Prop) g g' : (forall e, s e -> s' e) -> prefix_of s g g' -> prefix_of s' g g'.
Proof. intros H [E|[e [r [A [B C]]]]]; [left; exact E|right; exists e, r; auto]. Qed.

Lemma ball_apply_prefix (c : ball_cover D) X :
  prefix_of (raised ev (pair_in X)) (fst (ball_apply_c ev leb ltb gap zero c X))
    (ball_apply leb ltb gap zero metric c X).
Proof.
  unfold ball_apply_c, ball_apply, proximity_net, ball_fit, ball_fit_c, ball_fit_tree.
  pose proof (tracks_run _ _ _ _ _ (tracks_vptree (tree_ev ev) (tree_metric metric) leb ltb zero tree_agrees
    (tp_kind (bc_tree c)) (mkvp (bc_leaf_capacity c) (num_or leb zero (bc_leaf_radius c) (bc_radius c))
       (tp_pivoting (bc_tree c)) (tp_rng (bc_tree c))) (enumerate X))) as H.
  destruct (vptree_c _ _ _ _ _ _ _ []) as [[t w]|e].
  - destruct H as [-> [Ht _]]. cbn [bind]. eapply prefix_mono; [apply raised_points|].
    apply net_prefix. intros x Hx. apply tracks_ball_query; assumption.
  - destruct H as [->|H]; [left; reflexivity|]. right. exists e, (yields (match (do t <- vptree (tree_metric metric) leb ltb zero (tp_kind (bc_tree c))
          (mkvp (bc_leaf_capacity c) (num_or leb zero (bc_leaf_radius c) (bc_radius c))
             (tp_pivoting (bc_tree c)) (tp_rng (bc_tree c))) (enumerate X);
          Ok (ball_query leb ltb gap metric c t)) with Err e0 => mkgen [] (Some e0) | Ok s => net_loop s 0 X [] end)).
    split; [reflexivity|]. split; [apply raised_both, H|reflexivity].
Qed.

Lemma knn_apply_prefix (c : knn_cover D) X :
  prefix_of (raised ev (pair_in X)) (fst (knn_apply_c ev leb ltb gap zero c X))
    (knn_apply leb ltb gap zero metric c X).
Proof.
  unfold knn_apply_c, knn_apply, proximity_net, knn_fit, knn_fit_c, knn_fit_tree.
  pose proof (tracks_run _ _ _ _ _ (tracks_vptree (tree_ev ev) (tree_metric metric) leb ltb zero tree_agrees
    (tp_kind (kc_tree c)) (mkvp (nat_or (kc_leaf_capacity c) (kc_neighbors c)) (kc_leaf_radius c)
       (tp_pivoting (kc_tree c)) (tp_rng (kc_tree c))) (enumerate X))) as H.
  destruct (vptree_c _ _ _ _ _ _ _ []) as [[t w]|e].
  - destruct H as [-> [Ht _]]. cbn [bind]. eapply prefix_mono; [apply raised_points|].
    apply net_prefix. intros x Hx. apply tracks_knn_query; assumption.
  - destruct H as [->|H]; [left; reflexivity|]. right. eexists e, _.
    split; [reflexivity|]. split; [apply raised_both, H|]. simpl. reflexivity.
Qed.

(** *** Calls *)
Hypothesis Ho : order_ok leb ltb gap.

Lemma cost_ball_apply (c : ball_cover D) X : 1 <= bc_leaf_capacity c ->
  let r := ball_apply_c ev leb ltb gap zero c X in
  let b := 3 * length X * (Nat.log2_up (length X) + 1) in
  length (snd r) <= b + length X * length X /\
  ((forall x t w w', In x X -> ball_fit_c ev leb ltb zero c X [] = Ok (t, w) ->
      forall v, ball_query_c ev leb ltb gap c t x v <> Ok ([], w')) ->
   length (snd r) <= b + length X * length (yields (fst r))).
Proof.
  intros Hc r b. subst r b. unfold ball_apply_c. destruct (ball_fit_c ev leb ltb zero c X []) as [[t w]|e] eqn:E;
    [|simpl; lia].
  set (par := mkvp (bc_leaf_capacity c) (num_or leb zero (bc_leaf_radius c) (bc_radius c))
       (tp_pivoting (bc_tree c)) (tp_rng (bc_tree c))).
  assert (Lw : length w <= 3 * length X * (Nat.log2_up (length X) + 1)).
  { pose proof (cost_vptree (tree_ev ev) leb ltb zero (tp_kind (bc_tree c)) par (enumerate X) Hc [] t w E) as L.
    rewrite enumerate_length in L. unfold build_cost in L. simpl in L. destruct (tp_pivoting (bc_tree c)); lia. }
  pose proof (tracks_run _ _ _ _ _ (tracks_vptree (tree_ev ev) (tree_metric metric) leb ltb zero tree_agrees
    (tp_kind (bc_tree c)) par (enumerate X))) as H.
  unfold ball_fit_c in E. fold par in E. rewrite E in H. destruct H as [Et _].
  destruct (cost_searches (tree_ev ev) leb ltb gap zero (tree_metric metric) _ par (enumerate X) t Ho Hc Et) as [C _].
  rewrite enumerate_length in C.
  assert (Q : forall x, In x X -> cost (length X) (ball_query_c ev leb ltb gap c t x)).
  { intros x _. unfold ball_query_c. apply cost_bind0; [apply C|]. intro. apply cost_ret. }
  split.
  - pose proof (net_cost (ball_query_c ev leb ltb gap c t) (length X) X 0 [] w Q). lia.
  - intro N. pose proof (net_cost_yields (ball_query_c ev leb ltb gap c t) (length X) X 0 [] w Q
      (fun x v v' Hx => N x t w v' Hx eq_refl v)). lia.
Qed.

Lemma cost_knn_apply (c : knn_cover D) X : 1 <= kc_neighbors c ->
  let r := knn_apply_c ev leb ltb gap zero c X in
  let b := 3 * length X * (Nat.log2_up (length X) + 1) in
  length (snd r) <= b + length X * length X /\
  ((forall x t w w', In x X -> knn_fit_c ev leb ltb zero c X [] = Ok (t, w) ->
      forall v, knn_query_c ev leb ltb gap zero c t x v <> Ok ([], w')) ->
   length (snd r) <= b + length X * length (yields (fst r))).
Proof.
  intros Hk r b. subst r b. unfold knn_apply_c. destruct (knn_fit_c ev leb ltb zero c X []) as [[t w]|e] eqn:E;
    [|simpl; lia].
  set (par := mkvp (nat_or (kc_leaf_capacity c) (kc_neighbors c)) (kc_leaf_radius c)
       (tp_pivoting (kc_tree c)) (tp_rng (kc_tree c))).
  assert (Hc : 1 <= leaf_capacity par).
  { simpl. unfold nat_or. destruct (kc_leaf_capacity c) as [[|m]|]; lia. }
  assert (Lw : length w <= 3 * length X * (Nat.log2_up (length X) + 1)).
  { pose proof (cost_vptree (tree_ev ev) leb ltb zero (tp_kind (kc_tree c)) par (enumerate X) Hc [] t w E) as L.
    rewrite enumerate_length in L. unfold build_cost in L. simpl in L. destruct (tp_pivoting (kc_tree c)); lia. }
  pose proof (tracks_run _ _ _ _ _ (tracks_vptree (tree_ev ev) (tree_metric metric) leb ltb zero tree_agrees
    (tp_kind (kc_tree c)) par (enumerate X))) as H.
  unfold knn_fit_c in E. fold par in E. rewrite E in H. destruct H as [Et _].
  destruct (cost_searches (tree_ev ev) leb ltb gap zero (tree_metric metric) _ par (enumerate X) t Ho Hc Et) as [_ C].
  rewrite enumerate_length in C.
  assert (Q : forall x, In x X -> cost (length X) (knn_query_c ev leb ltb gap zero c t x)).
  { intros x _. unfold knn_query_c. apply cost_bind0; [apply C|]. intro. apply cost_ret. }
  split.
  - pose proof (net_cost (knn_query_c ev leb ltb gap zero c t) (length X) X 0 [] w Q). lia.
  - intro N. pose proof (net_cost_yields (knn_query_c ev leb ltb gap zero c t) (length X) X 0 [] w Q
      (fun x v v' Hx => N x t w v' Hx eq_refl v)). lia.
Qed.

(** Non-empty answers. *)
Lemma ball_query_nonempty (c : ball_cover D) X : 1 <= bc_leaf_capacity c ->
  tp_kind (bc_tree c) <> OtherKind ->
  (forall x, In x X -> searchable metric leb ltb gap X x) ->
  (forall x, In x X -> ltb (metric x x) (bc_radius c) = true) ->
  forall x t w w', In x X -> ball_fit_c ev leb ltb zero c X [] = Ok (t, w) ->
  forall v, ball_query_c ev leb ltb gap c t x v <> Ok ([], w').
Proof.
  intros Hc Hk Hs Hself x t w w' Hx E v Ev.
  assert (Hn : X <> []) by (intros ->; destruct Hx).
  pose proof (tracks_run _ _ _ _ _ (tracks_vptree (tree_ev ev) (tree_metric metric) leb ltb zero tree_agrees
    (tp_kind (bc_tree c)) (mkvp (bc_leaf_capacity c) (num_or leb zero (bc_leaf_radius c) (bc_radius c))
       (tp_pivoting (bc_tree c)) (tp_rng (bc_tree c))) (enumerate X))) as H.
  unfold ball_fit_c in E. rewrite E in H. destruct H as [Et [Ht _]].
  pose proof (tracks_ball_query c X t x Hx Ht v) as Q. rewrite Ev in Q. destruct Q as [Q _].
  destruct (ball_fit_ok metric leb ltb gap zero Ho c X Hc Hn Hk) as [search [Es Hans]].
  unfold ball_fit, ball_fit_tree in Es. rewrite Et in Es. cbn [bind] in Es. injection Es as <-.
  destruct (Hans x (Hs x Hx)) as [ids [Ei B]]. rewrite Q in Ei. injection Ei as <-.
  destruct (In_nth_error _ _ Hx) as [i Ni].
  apply (proj2 B i). exists x. split; [exact Ni|apply Hself, Hx].
Qed.

Lemma knn_query_nonempty (c : knn_cover D) X : 1 <= kc_neighbors c ->
  tp_kind (kc_tree c) <> OtherKind ->
  (forall x, In x X -> searchable metric leb ltb gap X x) ->
  forall x t w w', In x X -> knn_fit_c ev leb ltb zero c X [] = Ok (t, w) ->
  forall v, knn_query_c ev leb ltb gap zero c t x v <> Ok ([], w').
Proof.
  intros Hc Hk Hs x t w w' Hx E v Ev.
  assert (Hn : X <> []) by (intros ->; destruct Hx).
  pose proof (tracks_run _ _ _ _ _ (tracks_vptree (tree_ev ev) (tree_metric metric) leb ltb zero tree_agrees
    (tp_kind (kc_tree c)) (mkvp (nat_or (kc_leaf_capacity c) (kc_neighbors c)) (kc_leaf_radius c)
       (tp_pivoting (kc_tree c)) (tp_rng (kc_tree c))) (enumerate X))) as H.
  unfold knn_fit_c in E. rewrite E in H. destruct H as [Et [Ht _]].
  pose proof (tracks_knn_query c X t x Hx Ht v) as Q. rewrite Ev in Q. destruct Q as [Q _].
  destruct (knn_fit_ok metric leb ltb gap zero Ho c X Hc Hn Hk) as [search [Es Hans]].
  unfold knn_fit, knn_fit_tree in Es. rewrite Et in Es. cbn [bind] in Es. injection Es as <-.
  destruct (Hans x (Hs x Hx)) as [ids [Ei B]]. rewrite Q in Ei. injection Ei as <-.
  destruct B as [_ [L _]]. simpl in L. destruct X; [congruence|simpl in L]. lia.
Qed.
End CoverCalls.

(** *** Mapper on a cover that may stop early: the full run, or the exception. *)
Lemma run_jobs_app {S} (X : list S) clust (a b : list (list nat)) e after k :
  run_jobs X clust k a (Some e) = Err e \/
  run_jobs X clust k a (Some e) = run_jobs X clust k (a ++ b) after.
Proof.
  revert k. induction a as [|ids a IH]; intro k; [left; reflexivity|]. cbn [run_jobs app].
  destruct (run_clustering X clust k ids) as [p|e']; [|right; reflexivity]. cbn [bind].
  destruct (IH (Datatypes.S k)) as [E|E]; rewrite E; [left; reflexivity|right; reflexivity].
Qed.
Lemma labels_prefix {S} (X : list S) clust P (g full : gen (list nat)) : prefix_of P g full ->
  mapper_labels X g clust = mapper_labels X full clust \/ exists e, P e /\ mapper_labels X g clust = Err e.
Proof.
  intros [->|[e [rest [E1 [E2 E3]]]]]; [left; reflexivity|]. unfold mapper_labels. rewrite E1, E3.
  destruct (run_jobs_app X clust (yields g) rest e (stops full) 0) as [E|E]; rewrite E; [right; exists e; split; [exact E2|reflexivity]|left; reflexivity].
Qed.
