(** Covers without the triangle inequality: what the searches still find. *)
From Verif Require Import Base BaseFacts ModelCore SpecNet CoreLabels CoreProp ModelQuickselect ModelVPTree SpecVPTree VPSearchFacts
  VPProp ModelCover SpecCover SpecMetric SpecWeak CoverFacts CoverProp.
From Coq Require Import Reals Lra Sorted.
Open Scope nat_scope.

Section Weak.
Context {T D : Type}.
Variable metric : T -> T -> D.
Variables leb ltb : D -> D -> bool.
Variable gap : D -> D -> D.
Variable zero : D.
Hypothesis Ho : order_ok leb ltb gap.

Lemma any_tree_general {T' : Type} (m : T' -> T' -> D) kind (par : vparams D) (X : list T') :
  1 <= leaf_capacity par -> X <> [] -> kind <> OtherKind ->
  exists t, vptree m leb ltb zero kind par X = Ok t /\
    forall q, (forall v, In v X -> m v q = m q v) ->
      (forall eps inclusive, exists res missed, ball_search m leb ltb gap t q eps inclusive = Ok res /\
         Permutation (res ++ missed) (filter (in_ball m leb ltb q eps inclusive) X) /\
         Forall (cut_off m leb ltb gap X q (fun g => leb g eps = false)) missed) /\
      (forall k, exists res, knn_search m leb ltb gap zero t q k = Ok res /\
         knn_general_answer m leb ltb gap X q k res).
Proof.
  intros Hc Hn Hk. destruct kind; [| |congruence].
  - destruct (flat_ball_general m leb ltb gap zero par X Ho Hc Hn) as [t [E H]].
    destruct (flat_knn_general m leb ltb gap zero par X Ho Hc Hn) as [t' [E' H']].
    rewrite E in E'. injection E' as <-. exists t. split; [exact E|]. intros q _. auto.
  - destruct (hier_ball_general m leb ltb gap zero par X Ho Hc) as [t [E H]].
    destruct (hier_knn_general m leb ltb gap zero par X Ho Hc) as [t' [E' H']].
    rewrite E in E'. injection E' as <-. exists t. split; [exact E|]. intros q Hs. auto.
Qed.

Lemma enum_snd (X : list T) p : In p (enumerate X) -> In (snd p) X.
Proof. destruct p as [z x]. intro H. apply enumerate_in in H as [i [_ H]]. eapply nth_error_In, H. Qed.

Lemma cut_off_tree X z q far z' x :
  cut_off (tree_metric metric) leb ltb gap (enumerate X) (z, q) far (z', x) -> cut_off metric leb ltb gap X q far x.
Proof.
  intros [v [y [Hv [Hy [Hs Hf]]]]]. exists (snd v), (snd y).
  split; [apply enum_snd, Hv|]. split; [apply enum_snd, Hy|]. split; [exact Hs|exact Hf].
Qed.

Notation lost_ball X q r := (cut_off metric leb ltb gap X q (fun g => leb g r = false)).
Notation lost_knn X q := (fun (s : list nat) => cut_off metric leb ltb gap X q
  (fun g => forall i x, In i s -> nth_error X i = Some x -> leb (metric q x) g = true)).

Lemma nodup_app_l {A} (l m : list A) : NoDup (l ++ m) -> NoDup l.
Proof.
  intro N. induction l as [|a l IH]; [constructor|]. inversion N as [|b k N1 N2]; subst.
  constructor; auto. intro I. apply N1, in_or_app. auto.
Qed.

Lemma ball_fit_weak (c : ball_cover D) X :
  1 <= bc_leaf_capacity c -> X <> [] -> tp_kind (bc_tree c) <> OtherKind ->
  exists search, ball_fit leb ltb gap zero metric c X = Ok search /\
    forall q, (forall v, In v X -> metric v q = metric q v) ->
      exists ids, search q = Ok ids /\ ball_up_to metric ltb X (bc_radius c) q (lost_ball X q (bc_radius c)) ids.
Proof.
  intros Hc Hn Hk. unfold ball_fit, ball_fit_tree.
  assert (Hn' : enumerate X <> []).
  { intro E. apply Hn. apply length_zero_iff_nil. rewrite <- enumerate_length, E. reflexivity. }
  edestruct (any_tree_general (tree_metric metric) (tp_kind (bc_tree c))) as [t [E H]];
    [|exact Hn'|exact Hk|rewrite E; cbn [bind]].
  { exact Hc. }
  eexists. split; [reflexivity|]. intros q Hq.
  destruct (H ((-1)%Z, q)) as [HB _].
  { intros v Hv. apply Hq, enum_snd, Hv. }
  destruct (HB (bc_radius c) false) as [res [missed [E1 [P F]]]].
  exists (ids_of res). unfold ball_query. rewrite E1. split; [reflexivity|].
  assert (Hsub : forall p, In p res -> In p (enumerate X)).
  { intros p Hp. assert (I : In p (res ++ missed)) by (apply in_or_app; auto).
    eapply Permutation_in in I; [|exact P]. apply filter_In in I. tauto. }
  split; [|split].
  - apply nodup_app_l with (m := ids_of missed). unfold ids_of. rewrite <- map_app.
    eapply Permutation_NoDup; [apply Permutation_map, Permutation_sym, P|].
    apply nodup_map_filter. fold (ids_of (enumerate X)). rewrite ids_enumerate. apply seq_NoDup.
  - intros i Hi. apply (ids_in X res i Hsub) in Hi as [x [N I]]. exists x. split; [exact N|].
    assert (I2 : In (Z.of_nat i, x) (res ++ missed)) by (apply in_or_app; auto).
    eapply Permutation_in in I2; [|exact P]. apply filter_In in I2 as [_ I2]. exact I2.
  - intros i x N Hr Hi.
    assert (I : In (Z.of_nat i, x) (filter (in_ball (tree_metric metric) leb ltb ((-1)%Z, q) (bc_radius c) false) (enumerate X))).
    { apply filter_In. split; [apply enumerate_in; eauto|exact Hr]. }
    eapply Permutation_in in I; [|apply Permutation_sym, P]. apply in_app_or in I as [I|I].
    + exfalso. apply Hi. apply (ids_in X res i Hsub). eauto.
    + rewrite Forall_forall in F. eapply cut_off_tree, F, I.
Qed.

Lemma knn_fit_weak (c : knn_cover D) X :
  1 <= kc_neighbors c -> X <> [] -> tp_kind (kc_tree c) <> OtherKind ->
  exists search, knn_fit leb ltb gap zero metric c X = Ok search /\
    forall q, (forall v, In v X -> metric v q = metric q v) ->
      exists ids, search q = Ok ids /\ nearest_up_to metric leb X (kc_neighbors c) q (lost_knn X q) ids.
Proof.
  intros Hc Hn Hk. unfold knn_fit, knn_fit_tree.
  assert (Hn' : enumerate X <> []).
  { intro E. apply Hn. apply length_zero_iff_nil. rewrite <- enumerate_length, E. reflexivity. }
  edestruct (any_tree_general (tree_metric metric) (tp_kind (kc_tree c))) as [t [E H]];
    [|exact Hn'|exact Hk|rewrite E; cbn [bind]].
  { unfold nat_or. simpl. destruct (kc_leaf_capacity c) as [[|m]|]; lia. }
  eexists. split; [reflexivity|]. intros q Hq.
  destruct (H ((-1)%Z, q)) as [_ HK].
  { intros v Hv. apply Hq, enum_snd, Hv. }
  destruct (HK (kc_neighbors c)) as [res [E1 [L [rest [missed [P [H1 H2]]]]]]].
  exists (ids_of res). unfold knn_query. rewrite E1. split; [reflexivity|].
  assert (Hsub : forall p, In p res -> In p (enumerate X)).
  { intros p Hp. eapply Permutation_in; [apply Permutation_sym, P|]. apply in_or_app. auto. }
  assert (PI : Permutation (seq 0 (length X)) (ids_of res ++ ids_of (rest ++ missed))).
  { rewrite <- ids_enumerate. unfold ids_of. rewrite <- map_app. apply Permutation_map, P. }
  split; [|split; [|split]].
  - apply nodup_app_l with (m := ids_of (rest ++ missed)). eapply Permutation_NoDup; [exact PI|apply seq_NoDup].
  - unfold ids_of. rewrite map_length, L, enumerate_length. reflexivity.
  - intros i Hi. assert (I : In i (seq 0 (length X))).
    { eapply Permutation_in; [apply Permutation_sym, PI|]. apply in_or_app. auto. }
    apply in_seq in I. lia.
  - intros j y Hj Ny.
    assert (Iy : In (Z.of_nat j, y) (enumerate X)) by (apply enumerate_in; eauto).
    eapply Permutation_in in Iy; [|exact P]. apply in_app_or in Iy as [Iy|Iy]; [|apply in_app_or in Iy as [Iy|Iy]].
    + exfalso. apply Hj. apply (ids_in X res j Hsub). eauto.
    + left. intros i x Hi Nx. apply (ids_in X res i Hsub) in Hi as [x' [Nx' Ix]].
      rewrite Nx in Nx'. injection Nx' as <-. apply (H1 _ _ Ix Iy).
    + right. rewrite Forall_forall in H2. specialize (H2 _ Iy). apply cut_off_tree in H2.
      destruct H2 as [v [w [Hv [Hw [Hs Hf]]]]]. exists v, w. repeat (split; [assumption|]).
      intros i x Hi Nx. apply (ids_in X res i Hsub) in Hi as [x' [Nx' Ix]].
      rewrite Nx in Nx'. injection Nx' as <-. apply (Hf _ Ix).
Qed.

Lemma leb_refl a : leb a a = true.
Proof. destruct (ord_total _ _ _ Ho a a); auto. Qed.

(** A point is separated from itself only by spheres through it. *)
Lemma self_separated v r x : metric x v = metric v x -> separates metric leb ltb v r x x ->
  leb (metric x v) r = true /\ leb r (metric x v) = true.
Proof.
  intros Hs [[H1 H2]|[H1 H2]].
  - rewrite Hs in *. auto.
  - exfalso. rewrite (ord_lt _ _ _ Ho), Hs, H2 in H1. discriminate.
Qed.

Lemma ball_self X r q s i :
  symmetric_on metric X ->
  (forall a b, leb a b = true -> leb b a = true -> leb (gap a b) r = true) ->
  ball_up_to metric ltb X r q (lost_ball X q r) s ->
  nth_error X i = Some q -> ltb (metric q q) r = true -> In i s.
Proof.
  intros Hs Hg [Nd [H1 H2]] N Hr. destruct (in_dec Nat.eq_dec i s) as [I|I]; [exact I|]. exfalso.
  destruct (H2 i q N Hr I) as [v [y [Hv [Hy [Hsep Hf]]]]].
  apply self_separated in Hsep as [A B]; [|apply Hs; auto; eapply nth_error_In, N].
  rewrite (Hg _ _ A B) in Hf. discriminate.
Qed.

Lemma knn_self X k q s i :
  symmetric_on metric X ->
  (forall a b, leb a b = true -> leb b a = true -> leb (gap a b) (metric q q) = true) ->
  nearest_up_to metric leb X k q (lost_knn X q) s ->
  nth_error X i = Some q -> length (filter (same_place metric leb q) X) <= k -> In i s.
Proof.
  intros Hs Hg [Nd [L [B H]]] N C. destruct (in_dec Nat.eq_dec i s) as [I|I]; [exact I|]. exfalso.
  assert (Hall : forall j y, In j s -> nth_error X j = Some y -> same_place metric leb q y = true).
  { intros j y Hj Ny. destruct (H i q I N) as [Hle|[v [w [Hv [Hw [Hsep Hf]]]]]]; [apply (Hle j y Hj Ny)|].
    apply self_separated in Hsep as [A A']; [|apply Hs; auto; eapply nth_error_In, N].
    eapply (ord_trans _ _ _ Ho); [apply (Hf j y Hj Ny)|]. apply Hg; auto. }
  assert (Hi : i < length X) by (apply nth_error_Some; congruence).
  assert (Nd' : NoDup (i :: s)) by (constructor; auto).
  assert (L1 : length (i :: s) <= length X).
  { rewrite <- (seq_length (length X) 0). apply NoDup_incl_length; [exact Nd'|].
    intros j [->|Hj]; apply in_seq; [lia|]. specialize (B j Hj). lia. }
  assert (L2 : length (i :: s) <= length (filter (same_place metric leb q) X)).
  { apply ids_count; [exact Nd'|]. intros j [->|Hj].
    - exists q. split; [exact N|]. apply leb_refl.
    - destruct (nth_error X j) as [y|] eqn:Ny.
      + exists y. split; auto. eapply Hall; eauto.
      + apply nth_error_None in Ny. specialize (B j Hj). lia. }
  simpl in *. lia.
Qed.

Lemma ball_apply_weak (c : ball_cover D) X :
  1 <= bc_leaf_capacity c -> tp_kind (bc_tree c) <> OtherKind ->
  symmetric_on metric X ->
  (forall a b, leb a b = true -> leb b a = true -> leb (gap a b) (bc_radius c) = true) ->
  (forall x, In x X -> ltb (metric x x) (bc_radius c) = true) ->
  exists centers,
    let net := ball_apply leb ltb gap zero metric c X in
    stops net = None /\ covers (length X) (yields net) /\
    StronglySorted lt centers /\
    Forall2 (fun i s => exists x, nth_error X i = Some x /\ In i s /\
               ball_up_to metric ltb X (bc_radius c) x (lost_ball X x (bc_radius c)) s) centers (yields net) /\
    (forall m m' i s, m' < m -> nth_error centers m = Some i -> nth_error (yields net) m' = Some s -> ~ In i s).
Proof.
  intros Hc Hk Hs Hg Hself. destruct X as [|x0 X0].
  { exists []. unfold ball_apply, proximity_net, ball_fit, ball_fit_tree.
    edestruct (@fit_empty T D leb ltb zero (tree_metric metric) (tp_kind (bc_tree c))) as [t E]; [exact Hk|].
    unfold enumerate. simpl combine. rewrite E. cbn [bind]. simpl. repeat split; auto.
    - intros i Hi. inversion Hi.
    - constructor.
    - intros m m' i s _ Hm. destruct m; discriminate. }
  set (X := x0 :: X0) in *.
  destruct (ball_fit_weak c X Hc) as [search [E H]]; [discriminate|exact Hk|].
  assert (Hsym : forall x, In x X -> forall v, In v X -> metric v x = metric x v) by (intros; apply Hs; auto).
  assert (Hans : forall i x s, nth_error X i = Some x -> search x = Ok s ->
            In i s /\ ball_up_to metric ltb X (bc_radius c) x (lost_ball X x (bc_radius c)) s).
  { intros i x s N Es. assert (I := nth_error_In _ _ N).
    destruct (H x (Hsym x I)) as [ids [E2 B]]. rewrite Es in E2. injection E2 as ->. split; [|exact B].
    eapply ball_self; eauto. }
  destruct (net_greedy (ball_fit leb ltb gap zero metric c) X search E) as [cs [S1 [S2 S3]]].
  exists cs. cbn zeta.
  assert (Hst : stops (ball_apply leb ltb gap zero metric c X) = None).
  { eapply net_total; [|exact E]. intros x I. destruct (H x (Hsym x I)) as [ids [E2 _]]. eauto. }
  split; [exact Hst|]. split; [|split; [exact S1|split; [|exact S3]]].
  - intros i Hi. eapply net_covers; [exact E|exact Hst| |exact Hi].
    intros j x s N Es. apply (Hans j x s N Es).
  - eapply Forall2_impl; [|exact S2]. intros i s [[x [N Es]] _].
    exists x. split; [exact N|]. apply Hans; auto.
Qed.

Lemma knn_apply_weak (c : knn_cover D) X :
  1 <= kc_neighbors c -> tp_kind (kc_tree c) <> OtherKind ->
  symmetric_on metric X ->
  (forall a b q, In q X -> leb a b = true -> leb b a = true -> leb (gap a b) (metric q q) = true) ->
  (forall x, In x X -> length (filter (same_place metric leb x) X) <= kc_neighbors c) ->
  exists centers,
    let net := knn_apply leb ltb gap zero metric c X in
    stops net = None /\ covers (length X) (yields net) /\
    StronglySorted lt centers /\
    Forall2 (fun i s => exists x, nth_error X i = Some x /\ In i s /\
               nearest_up_to metric leb X (kc_neighbors c) x (lost_knn X x) s) centers (yields net) /\
    (forall m m' i s, m' < m -> nth_error centers m = Some i -> nth_error (yields net) m' = Some s -> ~ In i s).
Proof.
  intros Hc Hk Hs Hg Hself. destruct X as [|x0 X0].
  { exists []. unfold knn_apply, proximity_net, knn_fit, knn_fit_tree.
    edestruct (@fit_empty T D leb ltb zero (tree_metric metric) (tp_kind (kc_tree c))) as [t E]; [exact Hk|].
    unfold enumerate. simpl combine. rewrite E. cbn [bind]. simpl. repeat split; auto.
    - intros i Hi. inversion Hi.
    - constructor.
    - intros m m' i s _ Hm. destruct m; discriminate. }
  set (X := x0 :: X0) in *.
  destruct (knn_fit_weak c X Hc) as [search [E H]]; [discriminate|exact Hk|].
  assert (Hsym : forall x, In x X -> forall v, In v X -> metric v x = metric x v) by (intros; apply Hs; auto).
  assert (Hans : forall i x s, nth_error X i = Some x -> search x = Ok s ->
            In i s /\ nearest_up_to metric leb X (kc_neighbors c) x (lost_knn X x) s).
  { intros i x s N Es. assert (I := nth_error_In _ _ N).
    destruct (H x (Hsym x I)) as [ids [E2 B]]. rewrite Es in E2. injection E2 as ->. split; [|exact B].
    eapply knn_self; eauto. }
  destruct (net_greedy (knn_fit leb ltb gap zero metric c) X search E) as [cs [S1 [S2 S3]]].
  exists cs. cbn zeta.
  assert (Hst : stops (knn_apply leb ltb gap zero metric c X) = None).
  { eapply net_total; [|exact E]. intros x I. destruct (H x (Hsym x I)) as [ids [E2 _]]. eauto. }
  split; [exact Hst|]. split; [|split; [exact S1|split; [|exact S3]]].
  - intros i Hi. eapply net_covers; [exact E|exact Hst| |exact Hi].
    intros j x s N Es. apply (Hans j x s N Es).
  - eapply Forall2_impl; [|exact S2]. intros i s [[x [N Es]] _].
    exists x. split; [exact N|]. apply Hans; auto.
Qed.
End Weak.
