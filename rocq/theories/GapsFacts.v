(** Components as chains of shared clusters; what ball searches return for any metric. *)
From Verif Require Import Base BaseFacts Dict DictFacts ModelUnionFind UnionFindProp
  ModelCore SpecCore SpecNet CoreLabels CoreGraph CoreComponents CoreProp ModelQuickselect ModelVPTree ModelCover CoverFacts Relate SpecGaps.
Open Scope Z_scope.

Section Chain.
Context {S : Type}.
Variables (X : list S) (opens : gen (list nat)) (clust : clustering S).
Notation share := (share_cluster X (yields opens) clust).

Lemma components_inv comps : mapper_connected_components X opens clust = Ok comps ->
  exists out, mapper_labels X opens clust = Ok out.
Proof. unfold mapper_connected_components. intro H. apply bind_ok in H. destruct H as [out [Ho _]]. eauto. Qed.

Lemma components_chain comps : mapper_connected_components X opens clust = Ok comps ->
  length comps = length X /\
  forall i ci, nth_error comps i = Some ci ->
    (ci = -1 <-> ~ exists k l, in_cluster X (yields opens) clust k l i) /\
    forall j cj, nth_error comps j = Some cj -> (ci = cj /\ ci <> -1 <-> clos_trans nat share i j).
Proof.
  intro H. unfold mapper_connected_components in H. apply bind_ok in H. destruct H as [out [Ho H]].
  destruct (graph_of_labels_correct out) as [g [E [W [HN [HT HA]]]]].
  destruct (components_correct out g E) as [comps' [Ec [Hl HC]]].
  { intros i lbls z. apply (labels_nonneg X opens clust out); exact Ho. }
  rewrite H in Ec. injection Ec as <-.
  destruct (labels_are_clusters X opens clust out Ho) as [Hlen [name [[Hn1 Hn2] Hin]]].
  split; [congruence|].
  assert (Row : forall i, (i < length X)%nat -> exists lbls, nth_error out i = Some lbls).
  { intros i Hi. apply nth_error_ex. lia. }
  assert (Bound : forall k l i, in_cluster X (yields opens) clust k l i -> (i < length X)%nat).
  { intros k l i [_ [ids [lbls [j [[_ [xs [F _]]] [Hj _]]]]]].
    assert (G : In i ids) by (eapply nth_error_In; eauto). clear Hj. induction F as [|a x ids xs Hx F IH]; [contradiction|].
    destruct G as [<-|G]; [apply nth_error_Some; congruence|auto]. }
  (* two nodes of one point, and one node of two points *)
  assert (Sh : forall i j li lj z, nth_error out i = Some li -> nth_error out j = Some lj -> In z li -> In z lj -> share i j).
  { intros i j li lj z Hi Hj Zi Zj. apply (Hin i li Hi) in Zi. apply (Hin j lj Hj) in Zj.
    destruct Zi as [k [l [C ->]]], Zj as [k' [l' [C' Ez]]].
    destruct (Hn2 k l k' l') as [-> ->]; [exists i; exact C|exists j; exact C'|exact Ez|]. exists k', l'. auto. }
  assert (Same : forall i li z z', nth_error out i = Some li -> In z li -> In z' li -> connected g z z').
  { intros i li z z' Hi Z1 Z2. apply In_nth_error in Z1 as [a Ha]. apply In_nth_error in Z2 as [b Hb].
    destruct (Nat.eq_dec a b) as [->|Nab]; [rewrite Ha in Hb; injection Hb as <-; apply rst_refl|].
    apply rst_step. apply HA. exists i, li. split; [exact Hi|]. exists a, b. auto. }
  assert (Fwd : forall z z', connected g z z' ->
    ((exists i li, nth_error out i = Some li /\ In z li) <-> (exists i li, nth_error out i = Some li /\ In z' li)) /\
    forall i j li lj, nth_error out i = Some li -> nth_error out j = Some lj -> In z li -> In z' lj -> clos_trans nat share i j).
  { intros z z' C. induction C as [a b Hab|a|a b C [I1 I2]|a b c C1 [I1 I2] C2 [J1 J2]].
    - apply HA in Hab. destruct Hab as [m [lm [Hm [x [y [_ [Hx Hy]]]]]]].
      apply nth_error_In in Hx. apply nth_error_In in Hy. split; [split; eauto|].
      intros i j li lj Hi Hj Zi Zj. apply t_trans with m; apply t_step; eapply Sh; eauto.
    - split; [tauto|]. intros i j li lj Hi Hj Zi Zj. apply t_step. eapply Sh; eauto.
    - split; [tauto|]. intros i j li lj Hi Hj Zi Zj. specialize (I2 j i lj li Hj Hi Zj Zi).
      clear - I2. induction I2 as [p q [k [l [P Q]]]|p q r _ IH1 _ IH2]; [apply t_step; exists k, l; auto|eapply t_trans; eauto].
    - split; [tauto|]. intros i j li lj Hi Hj Zi Zj.
      destruct (proj1 I1) as [m [lm [Hm Zm]]]; [eauto|]. apply t_trans with m; eauto. }
  assert (Bwd : forall i j, clos_trans nat share i j ->
    exists li lj z z', nth_error out i = Some li /\ nth_error out j = Some lj /\ In z li /\ In z' lj /\ connected g z z').
  { intros i j C. induction C as [i j [k [l [P Q]]]|i m j _ [li [lm [z [zm [A1 [A2 [A3 [A4 A5]]]]]]]] _ [lm' [lj [zm' [z' [B1 [B2 [B3 [B4 B5]]]]]]]]].
    - destruct (Row i (Bound _ _ _ P)) as [li Hi]. destruct (Row j (Bound _ _ _ Q)) as [lj Hj].
      exists li, lj, (name k l), (name k l). split; [exact Hi|]. split; [exact Hj|].
      split; [apply (Hin i li Hi); eauto|]. split; [apply (Hin j lj Hj); eauto|]. apply rst_refl.
    - rewrite A2 in B1. injection B1 as <-. exists li, lj, z, z'. repeat (split; [assumption|]).
      eapply rst_trans; [exact A5|]. eapply rst_trans; [apply (Same m lm zm zm'); auto|exact B5]. }
  intros i ci Hci. assert (Hil : (i < length X)%nat) by (rewrite <- Hlen, <- Hl; eapply nth_error_lt; eauto).
  destruct (Row i Hil) as [li Hi]. destruct (HC i ci li Hci Hi) as [C1 [C2 C3]]. split.
  - rewrite C1. split.
    + intros -> [k [l C]]. apply (proj2 (Hin i [] Hi (name k l))). eauto.
    + intro No. destruct li as [|z t]; [reflexivity|]. exfalso. apply No.
      destruct (proj1 (Hin i _ Hi z)) as [k [l [C _]]]; [left; reflexivity|]. eauto.
  - intros j cj Hcj. assert (Hjl : (j < length X)%nat) by (rewrite <- Hlen, <- Hl; eapply nth_error_lt; eauto).
    destruct (Row j Hjl) as [lj Hj]. destruct (HC j cj lj Hcj Hj) as [D1 _]. split.
    + intros [-> N]. destruct li as [|z t]; [destruct N; apply C1; reflexivity|].
      destruct lj as [|z' t']; [destruct N; apply D1; reflexivity|].
      apply (proj2 (Fwd z z' (proj1 (C3 j cj _ z z' Hcj Hj (or_introl eq_refl) (or_introl eq_refl)) eq_refl)) i j _ _ Hi Hj); left; reflexivity.
    + intro C. destruct (Bwd i j C) as [li' [lj' [z [z' [A1 [A2 [A3 [A4 A5]]]]]]]].
      rewrite Hi in A1. injection A1 as <-. rewrite Hj in A2. injection A2 as <-. split.
      * apply (C3 j cj lj z z'); auto.
      * intros ->. rewrite (proj1 C1 eq_refl) in A3. contradiction.
Qed.

(** If the points of every open set are related, so are the points of a component. *)
Lemma components_related (rel : nat -> nat -> Prop) comps :
  mapper_connected_components X opens clust = Ok comps ->
  (forall i j k, rel i j -> rel j k -> rel i k) ->
  (forall s i j, In s (yields opens) -> In i s -> In j s -> rel i j) ->
  forall i j c, nth_error comps i = Some c -> nth_error comps j = Some c -> c <> -1 -> rel i j.
Proof.
  intros H Tr Hs i j c Hi Hj N. destruct (components_chain comps H) as [_ K].
  destruct (K i c Hi) as [_ K2]. pose proof (proj1 (K2 j c Hj) (conj eq_refl N)) as C. clear - C Tr Hs.
  induction C as [i j [k [l [[_ [ids [lb [a [[P1 _] [P2 _]]]]]] [_ [ids' [lb' [b [[Q1 _] [Q2 _]]]]]]]]]|i m j _ IH1 _ IH2]; [|eauto].
  rewrite P1 in Q1. injection Q1 as <-. apply nth_error_In in P1. apply nth_error_In in P2. apply nth_error_In in Q2. eauto.
Qed.
End Chain.

(** *** Ball searches for any function in place of the metric *)
Section Any.
Context {T D : Type}.
Variable metric : T -> T -> D.
Variables leb ltb : D -> D -> bool.
Variable gap : D -> D -> D.
Variable zero : D.

Definition found (X : list T) (q : T) (eps : D) (x : T) : Prop :=
  In x X /\ (ltb (metric q x) eps = true \/ ltb (metric x q) eps = true).

Lemma get_points_in (X : list T) st s e xs : get_points (D := D) X st s e = Ok xs -> Forall (fun x => In x X) xs.
Proof.
  unfold get_points. intro H. destruct (qextra1 st) as [u|]; [|discriminate].
  revert xs H. induction (slice u s e) as [|i l IH]; intros xs H; simpl in H; [injection H as <-; constructor|].
  apply bind_ok in H. destruct H as [x [Hx H]]. apply bind_ok in H. destruct H as [t [Ht H]]. injection H as <-.
  constructor; [|apply IH; exact Ht]. unfold rd in Hx. destruct (nth_error X i) eqn:N; [|discriminate]. injection Hx as <-.
  eapply nth_error_In; eauto.
Qed.

Lemma get_point_in (X : list T) st i x : get_point (D := D) X st i = Ok x -> In x X.
Proof.
  unfold get_point. intro H. apply bind_ok in H. destruct H as [j [_ Hx]].
  unfold rd in Hx. destruct (nth_error X j) eqn:N; [|discriminate]. injection Hx as <-. eapply nth_error_In; eauto.
Qed.

Lemma ball_leaf_found X q eps xs r : Forall (fun x => In x X) xs -> Forall (found X q eps) r ->
  Forall (found X q eps) (ball_leaf metric leb ltb q eps false xs r).
Proof.
  intros Hx Hr. unfold ball_leaf. apply Forall_app. split; [exact Hr|]. rewrite Forall_forall in *. intros x Ix.
  apply filter_In in Ix as [Ix Px]. split; [auto|]. left. exact Px.
Qed.

Lemma ball_loop_found X st q eps : forall fuel stack r res, Forall (found X q eps) r ->
  ball_loop metric leb ltb gap X fuel st q eps false stack r = Ok res -> Forall (found X q eps) res.
Proof.
  induction fuel as [|fuel IH]; intros stack r res Hr H; destruct stack as [|[s e] rest]; cbn [ball_loop] in H; try discriminate;
    try (injection H as <-; exact Hr).
  apply bind_ok in H. destruct H as [vr [_ H]]. apply bind_ok in H. destruct H as [vp [Hv H]].
  apply bind_ok in H. destruct H as [term [_ H]]. destruct term.
  - apply bind_ok in H. destruct H as [xs [Hx H]]. eapply IH; [|exact H]. apply ball_leaf_found; [eapply get_points_in; eauto|exact Hr].
  - cbv zeta in H. destruct (leb (metric q vp) vr); (eapply IH; [|exact H]);
      (destruct (inside leb ltb eps false (metric q vp)) eqn:I; [|exact Hr]); apply Forall_app; (split; [exact Hr|]);
      constructor; try constructor; try (eapply get_point_in; eauto); left; exact I.
Qed.

Inductive nodes_in (X : list T) : @htree T D -> Prop :=
| ni_leaf s e : nodes_in X (HLeaf s e)
| ni_node r c t1 t2 : In c X -> nodes_in X t1 -> nodes_in X t2 -> nodes_in X (HNode r c t1 t2).

Lemma ball_rec_found X st q eps t : nodes_in X t -> forall r res, Forall (found X q eps) r ->
  ball_rec metric leb ltb gap X st q eps false t r = Ok res -> Forall (found X q eps) res.
Proof.
  induction 1 as [s e|v c t1 t2 Ic _ IH1 _ IH2]; intros r res Hr H; cbn [ball_rec] in H.
  - apply bind_ok in H. destruct H as [xs [Hx H]]. injection H as <-. apply ball_leaf_found; [eapply get_points_in; eauto|exact Hr].
  - cbv zeta in H.
    assert (H1 : Forall (found X q eps) (if inside leb ltb eps false (metric c q) then r ++ [c] else r)).
    { destruct (inside leb ltb eps false (metric c q)) eqn:I; [|exact Hr]. apply Forall_app. split; [exact Hr|].
      constructor; [|constructor]. split; [exact Ic|]. right. exact I. }
    destruct (leb (metric c q) v); apply bind_ok in H; destruct H as [r2 [H2 H]];
      (destruct (leb (gap (metric c q) v) eps); [|injection H as <-]); eauto.
Qed.

Definition points_of (t : vpt T D) : list T := match t with FlatT X _ => X | HierT X _ _ => X end.

Lemma vptree_nodes kind par X t : vptree metric leb ltb zero kind par X = Ok t ->
  points_of t = X /\ match t with FlatT _ _ => True | HierT _ h _ => nodes_in X h end.
Proof.
  intro H.
  pose proof (vptree_rel (fun x x' => x = x' /\ In x X) (@eq D) metric metric leb ltb leb ltb zero zero
    ltac:(intros x x' y y' [<- _] [<- _]; reflexivity) ltac:(congruence) ltac:(congruence) eq_refl kind par par X X) as R.
  assert (Pr : par_rel eq par par) by (repeat split; auto).
  assert (FX : Forall2 (fun x x' => x = x' /\ In x X) X X).
  { assert (G : forall l, (forall x, In x l -> In x X) -> Forall2 (fun x x' => x = x' /\ In x X) l l).
    { induction l as [|a l IHl]; intro Hl; constructor; [split; [reflexivity|apply Hl; left; reflexivity]|]. apply IHl. intros; apply Hl; right; assumption. }
    apply G. auto. }
  specialize (R Pr FX). rewrite H in R. inversion R as [a b V Ea Eb|]; subst.
  assert (Ep : points_of t = X).
  { destruct kind; simpl in H; try discriminate; apply bind_ok in H; destruct H as [u [_ H]]; injection H as <-; reflexivity. }
  split; [exact Ep|]. clear - V. destruct V as [|Y Y' h h' s s' FY Th Q]; [exact I|]. clear - Th.
  induction Th as [|r r' c c' t1 t1' t2 t2' _ [<- Ic] _ IH1 _ IH2]; constructor; auto.
Qed.

Lemma ball_search_found kind par X t q eps res :
  vptree metric leb ltb zero kind par X = Ok t -> ball_search metric leb ltb gap t q eps false = Ok res ->
  Forall (found X q eps) res.
Proof.
  intros H S. destruct (vptree_nodes kind par X t H) as [E N]. destruct t as [Y s|Y h s]; cbn in E, S; subst Y.
  - unfold ball_flat in S. eapply ball_loop_found; [|exact S]. constructor.
  - eapply ball_rec_found; [exact N| |exact S]. constructor.
Qed.
End Any.

(** The sets of BallCover are parts of balls around points of the dataset, whatever the metric is. *)
Lemma ball_apply_found {T D} (metric : T -> T -> D) leb ltb gap zero (c : ball_cover D) X s :
  In s (yields (ball_apply leb ltb gap zero metric c X)) ->
  exists a x, nth_error X a = Some x /\
    forall i, In i s -> exists y, nth_error X i = Some y /\
      (ltb (metric x y) (bc_radius c) = true \/ ltb (metric y x) (bc_radius c) = true).
Proof.
  intro Is. destruct (ball_fit leb ltb gap zero metric c X) as [search|e] eqn:F.
  2: { unfold ball_apply, proximity_net in Is. rewrite F in Is. contradiction. }
  destruct (net_greedy (ball_fit leb ltb gap zero metric c) X search F) as [cs [_ [G _]]]. fold (ball_apply leb ltb gap zero metric c X) in G.
  assert (A : exists a, answer_at X search a s).
  { clear - G Is. induction G as [|a s' cs ys [Ha _] G IH]; [contradiction|]. destruct Is as [<-|Is]; eauto. }
  destruct A as [a [x [Hx Hs]]]. exists a, x. split; [exact Hx|].
  unfold ball_fit, ball_fit_tree in F. apply bind_ok in F. destruct F as [t [Ht F]]. injection F as <-.
  unfold ball_query in Hs. apply bind_ok in Hs. destruct Hs as [res [Hr Hs]]. injection Hs as <-.
  pose proof (ball_search_found _ _ _ _ _ _ _ _ _ _ _ _ Ht Hr) as P. rewrite Forall_forall in P.
  intros i Ii. apply (ids_in X res i) in Ii; [|intros p Ip; apply P, Ip].
  destruct Ii as [y [Hy Iy]]. exists y. split; [exact Hy|]. exact (proj2 (P _ Iy)).
Qed.
