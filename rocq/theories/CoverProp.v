(** Public form of the results on BallCover and KNNCover. *)
From Verif Require Import Base BaseFacts ModelCore SpecNet CoreLabels CoreProp ModelQuickselect ModelVPTree SpecVPTree VPSearchFacts
  VPProp ModelCover SpecCover SpecMetric CoverFacts.
From Coq Require Import Reals Lra Sorted.
Open Scope nat_scope.

Lemma filter_enumerate {T} (p : T -> bool) (X : list T) :
  length (filter p X) = length (filter (fun e => p (snd e)) (enumerate X)).
Proof.
  unfold enumerate. generalize 0. induction X as [|x X IH]; intro s; simpl; auto.
  destruct (p x); simpl; rewrite <- IH; reflexivity.
Qed.

(** Different ids of points satisfying [p]. *)
Lemma ids_count {T} (p : T -> bool) (X : list T) l :
  NoDup l -> (forall j, In j l -> exists x, nth_error X j = Some x /\ p x = true) ->
  length l <= length (filter p X).
Proof.
  intros Hn H. rewrite filter_enumerate.
  rewrite <- (map_length (fun e : Z * T => Z.to_nat (fst e)) (filter _ _)).
  apply NoDup_incl_length; [exact Hn|]. intros j Hj. destruct (H j Hj) as [x [N P]].
  apply in_map_iff. exists (Z.of_nat j, x). simpl. split; [apply Nat2Z.id|].
  apply filter_In. split; [apply enumerate_in; eauto|exact P].
Qed.

Lemma Forall2_nth_left {A B} (R : A -> B -> Prop) l : forall l' m a,
  Forall2 R l l' -> nth_error l m = Some a -> exists b, nth_error l' m = Some b /\ R a b.
Proof.
  induction l as [|x l IH]; intros l' m a F N; inversion F; subst; destruct m; try discriminate; simpl in *.
  - injection N as <-. eauto.
  - eauto.
Qed.

Section Generic.
Context {T D : Type}.
Variable metric : T -> T -> D.
Variables leb ltb : D -> D -> bool.
Variable gap : D -> D -> D.
Variable zero : D.
Notation searchable := (searchable metric leb ltb gap).
Notation ball_apply := (ball_apply leb ltb gap zero metric).
Notation knn_apply := (knn_apply leb ltb gap zero metric).

Lemma ball_search_exact (c : ball_cover D) X :
  order_ok leb ltb gap -> 1 <= bc_leaf_capacity c -> X <> [] -> tp_kind (bc_tree c) <> OtherKind ->
  exists search, ball_fit leb ltb gap zero metric c X = Ok search /\
    forall q, searchable X q ->
      exists ids, search q = Ok ids /\ open_ball metric ltb X (bc_radius c) q ids.
Proof. intro Ho. exact (ball_fit_ok metric leb ltb gap zero Ho c X). Qed.

Lemma knn_search_exact (c : knn_cover D) X :
  order_ok leb ltb gap -> 1 <= kc_neighbors c -> X <> [] -> tp_kind (kc_tree c) <> OtherKind ->
  exists search, knn_fit leb ltb gap zero metric c X = Ok search /\
    forall q, searchable X q ->
      exists ids, search q = Ok ids /\ nearest metric leb X (kc_neighbors c) q ids.
Proof. intro Ho. exact (knn_fit_ok metric leb ltb gap zero Ho c X). Qed.

Lemma answer_ball (search : T -> res (list nat)) X r x s :
  (forall q, searchable X q -> exists ids, search q = Ok ids /\ open_ball metric ltb X r q ids) ->
  searchable X x -> search x = Ok s -> open_ball metric ltb X r x s.
Proof. intros H Hx E. destruct (H x Hx) as [ids [E2 B]]. rewrite E in E2. injection E2 as ->. exact B. Qed.

Lemma ball_apply_net (c : ball_cover D) X :
  order_ok leb ltb gap -> 1 <= bc_leaf_capacity c -> tp_kind (bc_tree c) <> OtherKind ->
  (forall x, In x X -> searchable X x) ->
  (forall x, In x X -> ltb (metric x x) (bc_radius c) = true) ->
  exists centers,
    let net := ball_apply c X in
    stops net = None /\ covers (length X) (yields net) /\
    StronglySorted lt centers /\
    Forall2 (fun i s => exists x, nth_error X i = Some x /\
               open_ball metric ltb X (bc_radius c) x s /\ In i s) centers (yields net) /\
    forall a b x y, In a centers -> In b centers -> a <> b ->
      nth_error X a = Some x -> nth_error X b = Some y -> ltb (metric x y) (bc_radius c) = false.
Proof.
  intros Ho Hc Hk Hs Hself. destruct X as [|x0 X0].
  { exists []. unfold ModelCover.ball_apply, proximity_net, ball_fit, ball_fit_tree.
    edestruct (fit_empty leb ltb zero (tree_metric metric) (tp_kind (bc_tree c))) as [t E]; [exact Hk|].
    unfold enumerate. simpl combine. rewrite E. cbn [bind]. simpl. repeat split; auto.
    - intros i Hi. inversion Hi.
    - constructor.
    - intros a b x y []. }
  set (X := x0 :: X0) in *.
  destruct (ball_search_exact c X Ho Hc) as [search [E H]]; [discriminate|exact Hk|].
  assert (Hans : forall i x s, nth_error X i = Some x -> search x = Ok s ->
            open_ball metric ltb X (bc_radius c) x s /\ In i s).
  { intros i x s N Es. assert (I := nth_error_In _ _ N).
    assert (B := answer_ball search X _ x s H (Hs x I) Es). split; [exact B|].
    apply B. exists x. split; [exact N|]. apply Hself, I. }
  destruct (net_greedy (ball_fit leb ltb gap zero metric c) X search E) as [cs [S1 [S2 S3]]].
  exists cs. cbn zeta.
  assert (Hst : stops (ball_apply c X) = None).
  { eapply net_total; [|exact E]. intros x I. destruct (H x (Hs x I)) as [ids [E2 _]]. eauto. }
  split; [exact Hst|]. split; [|split; [exact S1|split]].
  - intros i Hi. eapply net_covers; [exact E|exact Hst| |exact Hi].
    intros j x s N Es. apply (Hans j x s N Es).
  - eapply Forall2_impl; [|exact S2]. intros i s [[x [N Es]] _].
    exists x. split; [exact N|]. apply Hans; auto.
  - assert (Hlt : forall ma mb a b x y, mb < ma -> nth_error cs ma = Some a -> nth_error cs mb = Some b ->
              nth_error X a = Some x -> nth_error X b = Some y -> ltb (metric y x) (bc_radius c) = false).
    { intros ma mb a b x y L Na Nb Nx Ny.
      destruct (Forall2_nth_left _ _ _ _ _ S2 Nb) as [s [Ns [[y' [Ny' Es]] _]]].
      rewrite Ny in Ny'. injection Ny' as <-.
      assert (Hn := S3 ma mb a s L Na Ns).
      destruct (ltb (metric y x) (bc_radius c)) eqn:El; [|reflexivity]. exfalso. apply Hn.
      destruct (Hans b y s Ny Es) as [B _]. apply B. eauto. }
    intros a b x y Ia Ib Hab Nx Ny.
    apply In_nth_error in Ia as [ma Na]. apply In_nth_error in Ib as [mb Nb].
    destruct (Nat.lt_trichotomy ma mb) as [L|[L|L]].
    + eapply Hlt; eauto.
    + subst. congruence.
    + assert (R : metric x y = metric y x).
      { apply Hs; [eapply nth_error_In, Ny|eapply nth_error_In, Nx]. }
      rewrite R. eapply Hlt; eauto.
Qed.

Lemma nearest_self X k x s i :
  order_ok leb ltb gap -> nearest metric leb X k x s -> nth_error X i = Some x ->
  length (filter (fun y => leb (metric x y) (metric x x)) X) <= k -> In i s.
Proof.
  intros Ho [Nd [L [B H]]] N C. destruct (in_dec Nat.eq_dec i s) as [I|I]; [exact I|]. exfalso.
  assert (Hi : i < length X) by (apply nth_error_Some; congruence).
  assert (Nd' : NoDup (i :: s)) by (constructor; auto).
  assert (L1 : length (i :: s) <= length X).
  { rewrite <- (seq_length (length X) 0). apply NoDup_incl_length; [exact Nd'|].
    intros j [->|Hj]; apply in_seq; [lia|]. specialize (B j Hj). lia. }
  assert (L2 : length (i :: s) <= length (filter (fun y => leb (metric x y) (metric x x)) X)).
  { apply ids_count; [exact Nd'|]. intros j [->|Hj].
    - exists x. split; [exact N|]. destruct (ord_total _ _ _ Ho (metric x x) (metric x x)); auto.
    - destruct (nth_error X j) as [y|] eqn:Ny.
      + exists y. split; auto. eapply H; eauto.
      + apply nth_error_None in Ny. specialize (B j Hj). lia. }
  simpl in *. lia.
Qed.

Lemma knn_apply_net (c : knn_cover D) X :
  order_ok leb ltb gap -> 1 <= kc_neighbors c -> tp_kind (kc_tree c) <> OtherKind ->
  (forall x, In x X -> searchable X x) ->
  exists centers,
    let net := knn_apply c X in
    stops net = None /\ StronglySorted lt centers /\
    Forall2 (fun i s => exists x, nth_error X i = Some x /\ nearest metric leb X (kc_neighbors c) x s)
      centers (yields net) /\
    (forall m m' i s, m' < m -> nth_error centers m = Some i -> nth_error (yields net) m' = Some s -> ~ In i s) /\
    ((forall x, In x X ->
        length (filter (fun y => leb (metric x y) (metric x x)) X) <= kc_neighbors c) ->
     covers (length X) (yields net)).
Proof.
  intros Ho Hc Hk Hs. destruct X as [|x0 X0].
  { exists []. unfold ModelCover.knn_apply, proximity_net, knn_fit, knn_fit_tree.
    edestruct (fit_empty leb ltb zero (tree_metric metric) (tp_kind (kc_tree c))) as [t E]; [exact Hk|].
    unfold enumerate. simpl combine. rewrite E. cbn [bind]. simpl. repeat split; auto.
    - constructor.
    - intros m m' i s _ Hm. destruct m; discriminate.
    - intros _ i Hi. inversion Hi. }
  set (X := x0 :: X0) in *.
  destruct (knn_search_exact c X Ho Hc) as [search [E H]]; [discriminate|exact Hk|].
  assert (Hans : forall x s, In x X -> search x = Ok s -> nearest metric leb X (kc_neighbors c) x s).
  { intros x s I Es. destruct (H x (Hs x I)) as [ids [E2 B]]. rewrite Es in E2. injection E2 as ->. exact B. }
  destruct (net_greedy (knn_fit leb ltb gap zero metric c) X search E) as [cs [S1 [S2 S3]]].
  exists cs. cbn zeta.
  assert (Hst : stops (knn_apply c X) = None).
  { eapply net_total; [|exact E]. intros x I. destruct (H x (Hs x I)) as [ids [E2 _]]. eauto. }
  split; [exact Hst|]. split; [exact S1|]. split; [|split; [exact S3|]].
  - eapply Forall2_impl; [|exact S2]. intros i s [[x [N Es]] _]. exists x. split; [exact N|].
    apply Hans; auto. eapply nth_error_In, N.
  - intros Hd i Hi. eapply net_covers; [exact E|exact Hst| |exact Hi].
    intros j x s N Es. eapply nearest_self; [exact Ho| |exact N|].
    + apply Hans; [eapply nth_error_In, N|exact Es].
    + apply Hd. eapply nth_error_In, N.
Qed.
End Generic.

(** *** Real distances *)
Section Real.
Open Scope R_scope.
Context {T : Type}.
Variable P : T -> Prop.
Variable d : T -> T -> R.

Lemma pseudo_on_nonneg x y : pseudo_metric_on P d -> P x -> P y -> 0 <= d x y.
Proof.
  intros [H1 H2 H3] Hx Hy. pose proof (H3 x y x Hx Hy Hx). rewrite H1, (H2 y x) in H by auto. lra.
Qed.

Lemma pseudo_on_searchable_gap gap X q :
  (forall a b, gap a b = Rabs (a - b)) ->
  pseudo_metric_on P d -> Forall P X -> P q -> searchable d Rleb Rltb gap X q.
Proof.
  intros Hg [_ Hs Ht] HX Hq. rewrite Forall_forall in HX. split.
  - intros v Hv. apply Hs; auto.
  - intros v y x Hv Hy Hx [[H1 H2]|[H1 H2]]; apply Rleb_true; rewrite Hg;
      specialize (HX _ Hv) as Pv; specialize (HX _ Hx) as Px; specialize (HX _ Hy) as Py.
    + apply Rleb_true in H1, H2. rewrite Rabs_left1 by lra.
      pose proof (Ht v q x Pv Hq Px). rewrite (Hs v q) in H by auto. lra.
    + apply Rltb_true in H1. apply Rleb_true in H2. rewrite Rabs_right by lra.
      pose proof (Ht q x v Hq Px Pv). rewrite (Hs x v) in H by auto. lra.
Qed.

Lemma pseudo_on_searchable X q :
  pseudo_metric_on P d -> Forall P X -> P q -> searchable d Rleb Rltb Rgap X q.
Proof. apply pseudo_on_searchable_gap. reflexivity. Qed.

Lemma ball_search_real (c : ball_cover R) X :
  pseudo_metric_on P d -> Forall P X -> X <> [] ->
  (1 <= bc_leaf_capacity c)%nat -> tp_kind (bc_tree c) <> OtherKind ->
  exists search, ball_fit Rleb Rltb Rgap 0 d c X = Ok search /\
    forall q, P q -> exists ids, search q = Ok ids /\ NoDup ids /\
      forall i, In i ids <-> exists x, nth_error X i = Some x /\ d q x < bc_radius c.
Proof.
  intros Hd HX Hn Hc Hk.
  destruct (ball_search_exact d Rleb Rltb Rgap 0 c X R_order_ok Hc Hn Hk) as [search [E H]].
  exists search. split; [exact E|]. intros q Hq.
  destruct (H q (pseudo_on_searchable X q Hd HX Hq)) as [ids [E2 [N B]]].
  exists ids. split; [exact E2|]. split; [exact N|]. intro i. rewrite B. split; intros [x [Nx Hx]];
    exists x; (split; [exact Nx|]); apply Rltb_true; exact Hx.
Qed.

Lemma ball_apply_real (c : ball_cover R) X :
  pseudo_metric_on P d -> Forall P X -> 0 < bc_radius c ->
  (1 <= bc_leaf_capacity c)%nat -> tp_kind (bc_tree c) <> OtherKind ->
  exists centers,
    let net := ball_apply Rleb Rltb Rgap 0 d c X in
    stops net = None /\ covers (length X) (yields net) /\ StronglySorted lt centers /\
    Forall2 (fun i s => exists x, nth_error X i = Some x /\ NoDup s /\ In i s /\
               forall j, In j s <-> exists y, nth_error X j = Some y /\ d x y < bc_radius c)
      centers (yields net) /\
    forall a b x y, In a centers -> In b centers -> a <> b ->
      nth_error X a = Some x -> nth_error X b = Some y -> bc_radius c <= d x y.
Proof.
  intros Hd HX Hr Hc Hk. assert (HX' := HX). rewrite Forall_forall in HX'.
  destruct (ball_apply_net d Rleb Rltb Rgap 0 c X R_order_ok Hc Hk) as [cs [H1 [H2 [H3 [H4 H5]]]]].
  - intros x I. apply pseudo_on_searchable; auto.
  - intros x I. apply Rltb_true. destruct Hd as [Hs _ _]. rewrite Hs; auto.
  - exists cs. cbn zeta. split; [exact H1|]. split; [exact H2|]. split; [exact H3|]. split.
    + eapply Forall2_impl; [|exact H4]. intros i s [x [N [[Nd B] I]]]. exists x.
      split; [exact N|]. split; [exact Nd|]. split; [exact I|]. intro j. rewrite B.
      split; intros [y [Ny Hy]]; exists y; (split; [exact Ny|]); apply Rltb_true; exact Hy.
    + intros a b x y Ia Ib Hab Nx Ny. specialize (H5 a b x y Ia Ib Hab Nx Ny).
      destruct (Rlt_dec (d x y) (bc_radius c)) as [L|L]; [|lra].
      apply Rltb_true in L. congruence.
Qed.

(** A radius that is not positive covers nothing. *)
Lemma ball_apply_nonpos (c : ball_cover R) X :
  pseudo_metric_on P d -> Forall P X -> bc_radius c <= 0 ->
  (1 <= bc_leaf_capacity c)%nat -> tp_kind (bc_tree c) <> OtherKind ->
  ball_apply Rleb Rltb Rgap 0 d c X = mkgen [] None.
Proof.
  intros Hd HX Hr Hc Hk. assert (HX' := HX). rewrite Forall_forall in HX'.
  destruct X as [|x0 X0].
  { unfold ball_apply, proximity_net, ball_fit, ball_fit_tree.
    edestruct (@fit_empty T R Rleb Rltb 0 (tree_metric d) (tp_kind (bc_tree c))) as [t E]; [exact Hk|].
    unfold enumerate. simpl combine. rewrite E. reflexivity. }
  set (X := x0 :: X0) in *.
  destruct (ball_search_real c X Hd HX ltac:(discriminate) Hc Hk) as [search [E H]].
  assert (Hans : forall x s, In x X -> search x = Ok s -> s = []).
  { intros x s I Es. destruct (H x (HX' x I)) as [ids [E2 [_ B]]]. rewrite Es in E2. injection E2 as <-.
    destruct s as [|i s]; [reflexivity|]. exfalso.
    destruct (proj1 (B i) (or_introl eq_refl)) as [y [Ny Hy]].
    pose proof (pseudo_on_nonneg x y Hd (HX' x I) (HX' y (nth_error_In _ _ Ny))). lra. }
  destruct (net_greedy (ball_fit Rleb Rltb Rgap 0 d c) X search E) as [cs [_ [S2 _]]].
  assert (Hst : stops (ball_apply Rleb Rltb Rgap 0 d c X) = None).
  { eapply net_total; [|exact E]. intros x I. destruct (H x (HX' x I)) as [ids [E2 _]]. eauto. }
  unfold ball_apply in *. destruct (proximity_net (ball_fit Rleb Rltb Rgap 0 d c) X) as [ys st].
  simpl in *. subst st. inversion S2 as [|i s cs' ys' [[x [N Es]] Hne] S2']; subst; [reflexivity|].
  exfalso. apply Hne. apply (Hans x s); [exact (nth_error_In X i N)|exact Es].
Qed.

Lemma knn_search_real (c : knn_cover R) X :
  pseudo_metric_on P d -> Forall P X -> X <> [] ->
  (1 <= kc_neighbors c)%nat -> tp_kind (kc_tree c) <> OtherKind ->
  exists search, knn_fit Rleb Rltb Rgap 0 d c X = Ok search /\
    forall q, P q -> exists ids, search q = Ok ids /\ NoDup ids /\
      length ids = Nat.min (kc_neighbors c) (length X) /\
      (forall i, In i ids -> (i < length X)%nat) /\
      forall i j x y, In i ids -> ~ In j ids -> nth_error X i = Some x -> nth_error X j = Some y ->
        d q x <= d q y.
Proof.
  intros Hd HX Hn Hc Hk.
  destruct (knn_search_exact d Rleb Rltb Rgap 0 c X R_order_ok Hc Hn Hk) as [search [E H]].
  exists search. split; [exact E|]. intros q Hq.
  destruct (H q (pseudo_on_searchable X q Hd HX Hq)) as [ids [E2 [N [L [B F]]]]].
  exists ids. split; [exact E2|]. split; [exact N|]. split; [exact L|]. split; [exact B|].
  intros i j x y Hi Hj Nx Ny. apply Rleb_true. eapply F; eauto.
Qed.

Lemma knn_apply_real (c : knn_cover R) X :
  pseudo_metric_on P d -> Forall P X ->
  (1 <= kc_neighbors c)%nat -> tp_kind (kc_tree c) <> OtherKind ->
  (forall i x, nth_error X i = Some x -> forall l, NoDup l ->
     (forall j, In j l -> j <> i /\ exists y, nth_error X j = Some y /\ d x y = 0) ->
     (length l < kc_neighbors c)%nat) ->
  stops (knn_apply Rleb Rltb Rgap 0 d c X) = None /\
  covers (length X) (yields (knn_apply Rleb Rltb Rgap 0 d c X)).
Proof.
  intros Hd HX Hc Hk Hdup. assert (HX' := HX). rewrite Forall_forall in HX'.
  destruct (knn_apply_net d Rleb Rltb Rgap 0 c X R_order_ok Hc Hk) as [cs [H1 [_ [_ [_ H2]]]]].
  - intros x I. apply pseudo_on_searchable; auto.
  - split; [exact H1|]. apply H2. intros x I.
    apply In_nth_error in I as [i N].
    (* the ids at distance 0 *)
    set (near := fun e : Z * T => Rleb (d x (snd e)) (d x x)).
    rewrite (filter_enumerate (fun y => Rleb (d x y) (d x x)) X).
    change (length (filter near (enumerate X)) <= kc_neighbors c)%nat.
    rewrite <- (map_length (fun e : Z * T => Z.to_nat (fst e)) (filter near (enumerate X))).
    set (l := map (fun e : Z * T => Z.to_nat (fst e)) (filter near (enumerate X))).
    assert (Nl : NoDup l).
    { apply nodup_map_filter. fold (ids_of (enumerate X)). rewrite ids_enumerate. apply seq_NoDup. }
    assert (Hl : forall j, In j l -> exists y, nth_error X j = Some y /\ d x y = 0).
    { intros j Hj. apply in_map_iff in Hj as [[z y] [Ez Hj]]. apply filter_In in Hj as [Hj Hn].
      apply enumerate_in in Hj as [j' [-> Ny]]. simpl in Ez. rewrite Nat2Z.id in Ez. subst j'.
      exists y. split; [exact Ny|]. unfold near in Hn. simpl in Hn. apply Rleb_true in Hn.
      assert (Px : P x) by (eapply HX', nth_error_In, N).
      assert (Py : P y) by (eapply HX', nth_error_In, Ny).
      destruct Hd as [Hs Hy Ht] eqn:Ed. rewrite Hs in Hn by auto.
      pose proof (pseudo_on_nonneg x y Hd Px Py). lra. }
    specialize (Hdup i x N (remove Nat.eq_dec i l)).
    assert (L : (length l <= Datatypes.S (length (remove Nat.eq_dec i l)))%nat).
    { change (length l <= length (i :: remove Nat.eq_dec i l))%nat.
      apply NoDup_incl_length; [exact Nl|]. intros j Hj. destruct (Nat.eq_dec i j) as [->|Hne]; [left; auto|].
      right. apply in_in_remove; auto. }
    assert (Hd2 : (length (remove Nat.eq_dec i l) < kc_neighbors c)%nat).
    { apply Hdup.
      - clear - Nl. induction Nl as [|a l' Ha Nl IH]; simpl; [constructor|].
        destruct (Nat.eq_dec i a); auto. constructor; auto. intro I. apply in_remove in I. tauto.
      - intros j Hj. apply in_remove in Hj as [Hj Hne]. auto. }
    lia.
Qed.
End Real.
