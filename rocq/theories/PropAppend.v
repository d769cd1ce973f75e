(** C70: what happens to a cover and to the Mapper graph when rows are appended. *)
From Coq Require Import QArith Reals Lra Lia Sorted.
From Verif Require Import Base BaseFacts ModelArith ModelCore SpecCore SpecNet SpecMetric ModelVPTree ModelCover SpecCover SpecCubical SpecNerve
  SpecPacking SpecAppend CoreLabels CoreProp CoverProp OverlapFacts PackingFacts NerveFacts AppendFacts.
From Verif Require Import CubicalFacts CubicalProp.
From Verif Require PropCover.
Import PropCover.
Open Scope R_scope.

(** ** C70: appended rows leave the centers of [BallCover] in place and add later ones, all of them new rows; the balls of
    the old centers only gain new rows. *)
Theorem C70_ball_sets : forall {T : Type} (P : T -> Prop) (d : T -> T -> R) (c : ball_cover R) (Y Z : list T),
  pseudo_metric_on P d -> Forall P (Y ++ Z) -> 0 < bc_radius c ->
  (1 <= bc_leaf_capacity c)%nat -> tp_kind (bc_tree c) <> OtherKind ->
  let ball X i s := exists x, nth_error X i = Some x /\ forall j, In j s <-> exists y, nth_error X j = Some y /\ d x y < bc_radius c in
  let opens := yields (ball_apply Rleb Rltb Rgap 0 d c Y) in let opens' := yields (ball_apply Rleb Rltb Rgap 0 d c (Y ++ Z)) in
  grows (length Y) 0 opens opens' /\
  exists centers more, Forall (fun i => (i < length Y)%nat) centers /\ Forall (le (length Y)) more /\
    Forall2 (ball Y) centers opens /\ Forall2 (ball (Y ++ Z)) (centers ++ more) opens' /\
    forall a b x y, In a (centers ++ more) -> In b (centers ++ more) -> a <> b ->
      nth_error (Y ++ Z) a = Some x -> nth_error (Y ++ Z) b = Some y -> bc_radius c <= d x y.
Proof.
  intros T P d c Y Z Hd HP Hr Hc Hk. cbv zeta.
  assert (HY : Forall P Y) by (apply Forall_app in HP; apply HP).
  destruct (ball_apply_real P d c Y Hd HY Hr Hc Hk) as [cs [St [_ [_ [Fc _]]]]].
  destruct (ball_apply_real P d c (Y ++ Z) Hd HP Hr Hc Hk) as [cs' [St' [_ [_ [Fc' Sep']]]]]. cbv zeta in *.
  destruct Y as [|y0 Y0].
  { assert (E : cs = []) by (destruct cs as [|i cs]; [reflexivity|]; inversion Fc as [|? ? ? ? [x [Ex _]]]; destruct i; discriminate).
    subst cs. inversion Fc as [E|]. unfold grows. split.
    - intros k s Ek. destruct k; discriminate.
    - exists [], cs'. split; [constructor|]. split; [apply Forall_forall; intros; apply Nat.le_0_l|]. split; [constructor|]. split; [|exact Sep'].
      eapply Forall2_impl; [|exact Fc']. intros i s [x [Ex [_ [_ Q]]]]. exists x. auto. }
  set (Y := y0 :: Y0) in *.
  destruct (ball_search_real P d c Y Hd HY ltac:(discriminate) Hc Hk) as [se [Ef Hs]].
  destruct (ball_search_real P d c (Y ++ Z) Hd HP ltac:(discriminate) Hc Hk) as [se' [Ef' Hs']].
  destruct (net_first_come se (ball_fit Rleb Rltb Rgap 0 d c) Y Ef St) as [cen FC].
  destruct (net_first_come se' (ball_fit Rleb Rltb Rgap 0 d c) (Y ++ Z) Ef' St') as [cen' FC'].
  pose proof Hd as [D0 _]. rewrite Forall_forall in HY, HP.
  assert (Ag : forall i x, nth_error Y i = Some x -> exists s s', se x = Ok s /\ se' x = Ok s' /\ In i s /\
    forall j, In j s <-> In j s' /\ (j < length Y)%nat).
  { intros i x Ex. pose proof (HY x (nth_error_In _ _ Ex)) as Px. destruct (Hs x Px) as [s [E1 [_ Q]]]. destruct (Hs' x Px) as [s' [E2 [_ Q']]].
    exists s, s'. split; [exact E1|]. split; [exact E2|]. split.
    - apply Q. exists x. split; [exact Ex|]. assert (Dx : d x x = 0) by (apply D0; exact Px). lra.
    - intro j. rewrite Q, Q'. split.
      + intros [y [Ey L]]. pose proof (nth_error_lt _ _ _ Ey). split; [|assumption]. exists y. rewrite nth_error_app1 by assumption. auto.
      + intros [[y [Ey L]] Hj]. rewrite nth_error_app1 in Ey by exact Hj. exists y. auto. }
  destruct (append_net Y Z se se' Ag cen _ cen' _ FC FC') as [[more [E Hm]] G]. split; [exact G|].
  assert (Sep : forall a b x y, In a cen' -> In b cen' -> (b < a)%nat -> nth_error (Y ++ Z) a = Some x -> nth_error (Y ++ Z) b = Some y -> bc_radius c <= d y x).
  { intros a b x y Ia Ib L Ea Eb. destruct (proj1 (first_come_member se' (Y ++ Z) cen' _ a FC') Ia) as [x' [s [_ [_ [_ D]]]]].
    destruct (Hs' y (HP y (nth_error_In _ _ Eb))) as [t [Et [_ Q]]]. destruct (Rle_lt_dec (bc_radius c) (d y x)) as [H|H]; [exact H|exfalso].
    apply (D b y t Ib L Eb Et). apply Q. exists x. auto. }
  exists cen, more. destruct FC as [[S1 [F1 _]] _], FC' as [[S2 [F2 _]] _]. rewrite <- E.
  assert (Lt : forall i, In i cen -> (i < length Y)%nat).
  { intros i I. destruct (In_nth_error _ _ I) as [k Ek]. destruct (F2_nth_l _ _ _ _ _ F1 Ek) as [s [_ [[x [Ex _]] _]]]. exact (nth_error_lt _ _ _ Ex). }
  split; [apply Forall_forall, Lt|]. split; [exact Hm|]. split; [|split].
  - eapply Forall2_impl; [|exact F1]. intros i s [[x [Ex Es]] _]. exists x. split; [exact Ex|].
    destruct (Hs x (HY x (nth_error_In _ _ Ex))) as [t [Et [_ Q]]]. assert (t = s) by congruence. subst t. exact Q.
  - eapply Forall2_impl; [|exact F2]. intros i s [[x [Ex Es]] _]. exists x. split; [exact Ex|].
    destruct (Hs' x (HP x (nth_error_In _ _ Ex))) as [t [Et [_ Q]]]. assert (t = s) by congruence. subst t. exact Q.
  - intros a b x y Ia Ib N Ea Eb. destruct (Nat.lt_trichotomy a b) as [L|[L|L]]; [exact (Sep b a y x Ib Ia L Eb Ea)|contradiction|].
    pose proof (Sep a b x y Ia Ib L Ea Eb). destruct Hd as [_ Sy _]. rewrite Sy; [assumption|apply HP; exact (nth_error_In _ _ Ea)|apply HP; exact (nth_error_In _ _ Eb)].
Qed.
Print Assumptions C70_ball_sets.

Lemma ball_sets_good {T : Type} (P : T -> Prop) d (c : ball_cover R) (Y : list T) :
  pseudo_metric_on P d -> Forall P Y -> 0 < bc_radius c -> (1 <= bc_leaf_capacity c)%nat -> tp_kind (bc_tree c) <> OtherKind ->
  sets_nodup (yields (ball_apply Rleb Rltb Rgap 0 d c Y)) /\ ~ In [] (yields (ball_apply Rleb Rltb Rgap 0 d c Y)).
Proof.
  intros Hd HP Hr Hc Hk. destruct (ball_apply_real P d c Y Hd HP Hr Hc Hk) as [cs [_ [_ [_ [F _]]]]]. split.
  - unfold sets_nodup. clear - F. induction F as [|k s l l' [x [_ [N _]]] F IH]; constructor; assumption.
  - intro Q. destruct (F2_in _ _ _ _ F Q) as [k [_ [x [_ [_ [[] _]]]]]].
Qed.

(** ** C70: so with [TrivialClustering] no node and no edge of the graph is lost or renumbered, and components are only joined. *)
Theorem C70_ball_graph : forall {T : Type} (P : T -> Prop) (d : T -> T -> R) (c : ball_cover R) (Y Z : list T),
  pseudo_metric_on P d -> Forall P (Y ++ Z) -> 0 < bc_radius c ->
  (1 <= bc_leaf_capacity c)%nat -> tp_kind (bc_tree c) <> OtherKind ->
  let opens := ball_apply Rleb Rltb Rgap 0 d c Y in let opens' := ball_apply Rleb Rltb Rgap 0 d c (Y ++ Z) in
  forall (S : Type) (X X' : list S),
  (forall g g', mapper_graph X opens (fun _ => trivial_clustering) = Ok g -> mapper_graph X' opens' (fun _ => trivial_clustering) = Ok g' ->
     keeps (length Y) 0 g g') /\
  (forall comps comps', mapper_connected_components X opens (fun _ => trivial_clustering) = Ok comps ->
     mapper_connected_components X' opens' (fun _ => trivial_clustering) = Ok comps' -> splits_components comps comps').
Proof.
  intros T P d c Y Z Hd HP Hr Hc Hk opens opens' S X X'. destruct (C70_ball_sets P d c Y Z Hd HP Hr Hc Hk) as [G _].
  destruct (ball_sets_good P d c (Y ++ Z) Hd HP Hr Hc Hk) as [N' E'].
  destruct (ball_sets_good P d c Y Hd ltac:(apply Forall_app in HP; apply HP) Hr Hc Hk) as [N E]. split.
  - intros g g' Hg Hg'. exact (graph_keeps X X' _ 0 opens opens' g g' Hg Hg' N N' E E' G).
  - intros comps comps' H H'. exact (components_keep X X' _ 0 opens opens' comps comps' H H' G).
Qed.
Print Assumptions C70_ball_graph.

(** ** C70: rows at distance 0 from old ones add no ball, and are in the balls of the rows they are copies of. *)
Theorem C70_ball_copies : forall {T : Type} (P : T -> Prop) (d : T -> T -> R) (c : ball_cover R) (Y Z : list T),
  pseudo_metric_on P d -> Forall P (Y ++ Z) -> 0 < bc_radius c ->
  (1 <= bc_leaf_capacity c)%nat -> tp_kind (bc_tree c) <> OtherKind ->
  (forall z, In z Z -> exists y, In y Y /\ d y z = 0) ->
  let opens := yields (ball_apply Rleb Rltb Rgap 0 d c Y) in let opens' := yields (ball_apply Rleb Rltb Rgap 0 d c (Y ++ Z)) in
  length opens' = length opens /\
  forall s' i j y z, In s' opens' -> nth_error (Y ++ Z) i = Some y -> nth_error (Y ++ Z) j = Some z -> d y z = 0 -> (In i s' <-> In j s').
Proof.
  intros T P d c Y Z Hd HP Hr Hc Hk Cp. cbv zeta. destruct (C70_ball_sets P d c Y Z Hd HP Hr Hc Hk) as [G [cen [more [Lt [Ge [F [F' Sep]]]]]]].
  pose proof Hd as [D0 Sy Tr]. assert (HP0 := HP). rewrite Forall_forall in HP.
  assert (PI : forall i y, nth_error (Y ++ Z) i = Some y -> P y) by (intros i y E; exact (HP y (nth_error_In _ _ E))).
  assert (Old : forall i, (i < length Y)%nat -> nth_error (Y ++ Z) i = nth_error Y i) by (intros i L; apply nth_error_app1; exact L).
  split.
  - assert (more = []) as ->.
    { destruct more as [|a more]; [reflexivity|exfalso]. inversion Ge as [|? ? Ga _]; subst.
      assert (Na : nth_error (cen ++ a :: more) (length cen) = Some a) by (rewrite nth_error_app2, Nat.sub_diag by lia; reflexivity).
      destruct (F2_nth_l _ _ _ _ _ F' Na) as [s' [Es' [x [Ex Qx]]]].
      pose proof Ex as Ex0. rewrite nth_error_app2 in Ex0 by exact Ga. destruct (Cp x (nth_error_In _ _ Ex0)) as [y [Iy Dy]].
      apply In_nth_error in Iy. destruct Iy as [i Ei]. pose proof (nth_error_lt _ _ _ Ei) as Li.
      destruct (ball_apply_real P d c Y Hd ltac:(apply Forall_app in HP0; apply HP0) Hr Hc Hk) as [cs0 [_ [Cov0 _]]]. cbv zeta in *.
      destruct (Cov0 i Li) as [t [It Iit]]. apply In_nth_error in It. destruct It as [k Ek].
      destruct (F2_nth _ _ _ _ _ F Ek) as [b [Eb [u [Eu Qu]]]]. apply Qu in Iit. destruct Iit as [y2 [E2 Lu]].
      assert (y2 = y) by congruence. subst y2. pose proof (nth_error_lt _ _ _ Eu) as Lb.
      assert (H1 : bc_radius c <= d u x).
      { apply (Sep b a u x); [apply in_or_app; left; exact (nth_error_In _ _ Eb)|apply in_or_app; right; left; reflexivity|lia|rewrite Old by exact Lb; exact Eu|exact Ex]. }
      assert (Pu : P u) by (apply (PI b); rewrite Old by exact Lb; exact Eu). assert (Py : P y) by (apply (PI i); rewrite Old by exact Li; exact Ei).
      pose proof (Tr u y x Pu Py (PI _ _ Ex)). lra. }
    rewrite app_nil_r in F'. rewrite <- (F2_length _ _ _ F), <- (F2_length _ _ _ F'). reflexivity.
  - intros s' i j y z Is Ei Ej Dz. destruct (F2_in _ _ _ _ F' Is) as [b [_ [u [Eu Qu]]]]. rewrite !Qu.
    pose proof (PI _ _ Eu) as Pu. pose proof (PI _ _ Ei) as Py. pose proof (PI _ _ Ej) as Pz.
    pose proof (Tr u y z Pu Py Pz). pose proof (Tr u z y Pu Pz Py). rewrite (Sy z y Pz Py) in *. split.
    + intros [y' [E L]]. assert (y' = y) by congruence. subst y'. exists z. split; [exact Ej|lra].
    + intros [y' [E L]]. assert (y' = z) by congruence. subst y'. exists y. split; [exact Ei|lra].
Qed.
Print Assumptions C70_ball_copies.

(** ** C70: then the graph has the same nodes, the same edges and, on the old rows, the same points. *)
Theorem C70_ball_copies_graph : forall {T : Type} (P : T -> Prop) (d : T -> T -> R) (c : ball_cover R) (Y Z : list T),
  pseudo_metric_on P d -> Forall P (Y ++ Z) -> 0 < bc_radius c ->
  (1 <= bc_leaf_capacity c)%nat -> tp_kind (bc_tree c) <> OtherKind ->
  (forall z, In z Z -> exists y, In y Y /\ d y z = 0) ->
  let opens := ball_apply Rleb Rltb Rgap 0 d c Y in let opens' := ball_apply Rleb Rltb Rgap 0 d c (Y ++ Z) in
  forall (S : Type) (X X' : list S) g g',
  mapper_graph X opens (fun _ => trivial_clustering) = Ok g -> mapper_graph X' opens' (fun _ => trivial_clustering) = Ok g' ->
  keeps (length Y) 0 g g' /\ (forall z, has_node g z <-> has_node g' z) /\ forall a b, adjacent g a b <-> adjacent g' a b.
Proof.
  intros T P d c Y Z Hd HP Hr Hc Hk Cp opens opens' S X X' g g' Hg Hg'.
  destruct (C70_ball_sets P d c Y Z Hd HP Hr Hc Hk) as [G [cen [more [_ [_ [_ [F' _]]]]]]].
  destruct (C70_ball_copies P d c Y Z Hd HP Hr Hc Hk Cp) as [Len Tw].
  pose proof (proj1 (C70_ball_graph P d c Y Z Hd HP Hr Hc Hk S X X') g g' Hg Hg') as K.
  destruct (ball_sets_good P d c (Y ++ Z) Hd HP Hr Hc Hk) as [N' E'].
  destruct (ball_sets_good P d c Y Hd ltac:(apply Forall_app in HP; apply HP) Hr Hc Hk) as [N E].
  destruct (trivial_nerve X _ g Hg N E) as [V1 [V2 V3]]. destruct (trivial_nerve X' _ g' Hg' N' E') as [V1' [V2' V3']].
  assert (Back : forall k s', nth_error (yields opens') k = Some s' -> exists s, nth_error (yields opens) k = Some s /\ forall i, In i s <-> In i s' /\ (i < length Y)%nat).
  { intros k s' E0. destruct (nth_error (yields opens) k) as [s|] eqn:Es.
    - exists s. split; [reflexivity|]. destruct (G k s Es) as [s2 [E2 Q]]. simpl in E2. fold opens' in E2. assert (s2 = s') by congruence. subst s2. exact Q.
    - apply nth_error_None in Es. pose proof (nth_error_lt _ _ _ E0). unfold opens, opens' in *. lia. }
  split; [exact K|]. split.
  - intro z. rewrite V1, V1'. split; intros [k [s [-> Es]]].
    + destruct (G k s Es) as [s' [Es' _]]. exists k, s'. auto.
    + destruct (Back k s Es) as [s0 [Es0 _]]. exists k, s0. auto.
  - intros a b. split; [intro A; exact (proj2 K a b A)|]. intro A. destruct (graph_ends X' _ _ g' Hg' N' a b A) as [Na Nb].
    apply V1' in Na. apply V1' in Nb. destruct Na as [k [_ [-> _]]], Nb as [k' [_ [-> _]]]. apply V3' in A. apply V3.
    destruct A as [D [s [s' [i [E1 [E2 [Is Is']]]]]]]. split; [exact D|].
    assert (O : exists i0, (i0 < length Y)%nat /\ (forall t, In t (yields opens') -> In i t -> In i0 t)).
    { destruct (F2_in _ _ _ _ F' (nth_error_In _ _ E1)) as [b [_ [u [_ Qu]]]]. apply Qu in Is. destruct Is as [x [Ex _]].
      destruct (Nat.lt_ge_cases i (length Y)) as [L|L]; [exists i; auto|]. pose proof Ex as Ex0. rewrite nth_error_app2 in Ex0 by exact L.
      destruct (Cp x (nth_error_In _ _ Ex0)) as [y [Iy Dy]]. apply In_nth_error in Iy. destruct Iy as [i0 Ei0]. pose proof (nth_error_lt _ _ _ Ei0) as L0.
      exists i0. split; [exact L0|]. intros t It Ii. apply (Tw t i0 i y x It); auto. rewrite nth_error_app1 by exact L0. exact Ei0. }
    destruct O as [i0 [L0 O]]. destruct (Back k s E1) as [t [Et Qt]]. destruct (Back k' s' E2) as [t' [Et' Qt']].
    exists t, t', i0. split; [exact Et|]. split; [exact Et'|]. split; [apply Qt|apply Qt']; (split; [|exact L0]); apply O; auto; eapply nth_error_In; eassumption.
Qed.
Print Assumptions C70_ball_copies_graph.

Lemma own_cube m eps Y lo hi (c : cubical RA) ov x k : cubical_input m eps Y lo hi c ov -> 0 < ov < 1 -> In x Y ->
  in_cell m (cu_n_intervals RA c) (grid_pos (cu_n_intervals RA c) eps lo hi) x k ->
  in_cube m (1 / (2 - 2 * ov)) (grid_pos (cu_n_intervals RA c) eps lo hi) k x.
Proof.
  intros I H Ix Hk. pose proof (ci_rows _ _ _ _ _ _ _ I) as Rw. rewrite Forall_forall in Rw. pose proof (Rw x Ix) as Lx.
  destruct (ci_eps _ _ _ _ _ _ _ I) as [e0 e1].
  pose proof (point_in_own_cube m eps Y lo hi c ov (ci_dim _ _ _ _ _ _ _ I) (ci_n _ _ _ _ _ _ _ I) e0 (ci_bounds _ _ _ _ _ _ _ I) (ci_cap _ _ _ _ _ _ _ I) x H e1 Ix Lx) as Q.
  assert (Hc : in_cell m (cu_n_intervals RA c) (grid_pos (cu_n_intervals RA c) eps lo hi) x (offset RA (grid_bounds m (cu_n_intervals RA c) eps lo hi) x)).
  { apply offset_in_cell; auto; apply I. }
  destruct (C28_one_cell m eps lo hi c x (ci_n _ _ _ _ _ _ _ I) Lx) as [_ U]. rewrite (U _ _ Hk Hc). exact Q.
Qed.
(** ** C70: with the bounds of the columns unchanged, the sets of [ProximityCubicalCover] are kept in place, and those of
    [StandardCubicalCover] come after the sets of cells without old rows. *)
Theorem C70_proximity_sets : forall m eps Y Z lo hi (c : cubical RA) ov,
  cubical_input m eps Y lo hi c ov -> cubical_input m eps (Y ++ Z) lo hi c ov -> 0 < ov < 1 ->
  grows (length Y) 0 (yields (cubical_apply RA eps Proximity c Y)) (yields (cubical_apply RA eps Proximity c (Y ++ Z))).
Proof.
  intros m eps Y Z lo hi c ov I I' H.
  destruct (C29_cubical_covers m eps Y lo hi c ov Proximity I H ltac:(discriminate)) as [St _].
  destruct (C29_cubical_covers m eps (Y ++ Z) lo hi c ov Proximity I' H ltac:(discriminate)) as [St' _].
  destruct (C28_search_is_hypercube m eps Y lo hi c ov I H) as [se [Ef Hs]].
  destruct (C28_search_is_hypercube m eps (Y ++ Z) lo hi c ov I' H) as [se' [Ef' Hs']]. cbv zeta in *.
  destruct (net_first_come se (cubical_fit RA eps c) Y Ef St) as [cen FC].
  destruct (net_first_come se' (cubical_fit RA eps c) (Y ++ Z) Ef' St') as [cen' FC'].
  refine (proj2 (append_net Y Z se se' _ cen _ cen' _ FC FC')). intros i x Ex.
  assert (Lx : length x = m) by (pose proof (ci_rows _ _ _ _ _ _ _ I) as Rw; rewrite Forall_forall in Rw; apply Rw; exact (nth_error_In _ _ Ex)).
  destruct (proj1 (C28_one_cell m eps lo hi c x (ci_n _ _ _ _ _ _ _ I) Lx)) as [k Hk].
  destruct (Hs x k Lx Hk) as [s [E1 [_ Q]]]. destruct (Hs' x k Lx Hk) as [s' [E2 [_ Q']]]. exists s, s'. split; [exact E1|]. split; [exact E2|]. split.
  - apply Q. exists x. split; [exact Ex|]. 
    exact (own_cube m eps Y lo hi c ov x k I H (nth_error_In _ _ Ex) Hk).
  - intro j. rewrite Q, Q'. split.
    + intros [y [Ey L]]. pose proof (nth_error_lt _ _ _ Ey). split; [|assumption]. exists y. rewrite nth_error_app1 by assumption. auto.
    + intros [[y [Ey L]] Hj]. rewrite nth_error_app1 in Ey by exact Hj. exists y. auto.
Qed.
Print Assumptions C70_proximity_sets.

Theorem C70_standard_sets : forall m eps Y Z lo hi (c : cubical RA) ov,
  cubical_input m eps Y lo hi c ov -> cubical_input m eps (Y ++ Z) lo hi c ov -> 0 < ov < 1 ->
  let opens := yields (cubical_apply RA eps Standard c Y) in let opens' := yields (cubical_apply RA eps Standard c (Y ++ Z)) in
  exists off, length opens' = (off + length opens)%nat /\ grows (length Y) off opens opens'.
Proof.
  intros m eps Y Z lo hi c ov I I' H.
  destruct (C30_standard_cells m eps Y lo hi c ov I H) as [_ [cells [Nc [Mc [Fc Oc]]]]].
  destruct (C30_standard_cells m eps (Y ++ Z) lo hi c ov I' H) as [_ [cells' [Nc' [Mc' [Fc' Oc']]]]].
  cbv zeta in *. set (n := cu_n_intervals RA c) in *. set (p := grid_pos n eps lo hi) in *.
  assert (Old : forall i, (i < length Y)%nat -> nth_error (Y ++ Z) i = nth_error Y i) by (intros i L; apply nth_error_app1; exact L).
  pose (R0 := fun k k' => exists i i', first_in_cell m n p (Y ++ Z) k i /\ first_in_cell m n p (Y ++ Z) k' i' /\ (i' < i)%nat).
  assert (Uni : forall k i j, first_in_cell m n p (Y ++ Z) k i -> first_in_cell m n p (Y ++ Z) k j -> i = j).
  { intros k i j [[x [Ex Cx]] Hi] [[y [Ey Cy]] Hj]. destruct (Nat.lt_trichotomy i j) as [L|[L|L]]; [exfalso|exact L|exfalso].
    - exact (Hj i x L Ex Cx).
    - exact (Hi j y L Ey Cy). }
  assert (First : forall k, In k cells' -> exists i, first_in_cell m n p (Y ++ Z) k i).
  { intros k Ik. apply Mc' in Ik. destruct Ik as [x [Ix Cx]]. apply In_nth_error in Ix. destruct Ix as [i Ei]. revert x Ei Cx. induction i as [i IH] using lt_wf_ind. intros x Ei Cx.
    destruct (Classical_Prop.classic (exists j y, (j < i)%nat /\ nth_error (Y ++ Z) j = Some y /\ in_cell m n p y k)) as [[j [y [L [Ej Cy]]]]|No].
    - exact (IH j L y Ej Cy).
    - exists i. split; [exists x; auto|]. intros j y L Ej Cy. apply No. exists j, y. auto. }
  assert (Sub : forall k, In k cells -> In k cells').
  { intros k Ik. apply Mc in Ik. destruct Ik as [x [Ix Cx]]. apply Mc'. exists x. split; [apply in_or_app; left; exact Ix|exact Cx]. }
  assert (Early : forall k i, first_in_cell m n p (Y ++ Z) k i -> (In k cells <-> (i < length Y)%nat)).
  { intros k i [[x [Ex Cx]] Hi]. split.
    - intro Ik. apply Mc in Ik. destruct Ik as [y [Iy Cy]]. apply In_nth_error in Iy. destruct Iy as [j Ej]. pose proof (nth_error_lt _ _ _ Ej) as Lj.
      destruct (Nat.lt_ge_cases j i) as [L|L]; [exfalso; apply (Hi j y L); [rewrite Old by exact Lj; exact Ej|exact Cy]|lia].
    - intro L. rewrite Old in Ex by exact L. apply Mc. exists x. split; [exact (nth_error_In _ _ Ex)|exact Cx]. }
  assert (Both : forall k i, (i < length Y)%nat -> first_in_cell m n p (Y ++ Z) k i -> first_in_cell m n p Y k i).
  { intros k i L [[x [Ex Cx]] Hi]. rewrite Old in Ex by exact L. split; [exists x; auto|]. intros j y Lj Ej. apply (Hi j y Lj). rewrite Old by lia. exact Ej. }
  assert (S1 : StronglySorted R0 cells).
  { apply sorted_nth. intros a b k k' L Ea Eb. pose proof (nth_error_In _ _ Ea) as Ik. pose proof (nth_error_In _ _ Eb) as Ik'.
    destruct (First k (Sub k Ik)) as [i Hi]. destruct (First k' (Sub k' Ik')) as [i' Hi']. exists i, i'. split; [exact Hi|]. split; [exact Hi'|].
    apply (Oc a b k k' i i' L Ea Eb); apply Both; auto; [apply (Early k i Hi), Ik|apply (Early k' i' Hi'), Ik']. }
  assert (S2 : StronglySorted R0 cells').
  { apply sorted_nth. intros a b k k' L Ea Eb. destruct (First k (nth_error_In _ _ Ea)) as [i Hi]. destruct (First k' (nth_error_In _ _ Eb)) as [i' Hi'].
    exists i, i'. split; [exact Hi|]. split; [exact Hi'|]. exact (Oc' a b k k' i i' L Ea Eb Hi Hi'). }
  pose (new := fun k => if in_dec (list_eq_dec Z.eq_dec) k cells then false else true).
  assert (New : forall k, new k = true <-> ~ In k cells).
  { intro k. unfold new. destruct (in_dec (list_eq_dec Z.eq_dec) k cells); split; intro Q; try discriminate; try contradiction; auto. }
  assert (Sp : cells' = filter new cells' ++ filter (fun k => negb (new k)) cells').
  { apply (split_sorted R0); [exact S2|]. intros a b _ _ [i [i' [Ha [Hb L]]]] Nb. rewrite New in *. rewrite (Early _ _ Hb) in Nb. rewrite (Early _ _ Ha). lia. }
  assert (Eq : filter (fun k => negb (new k)) cells' = cells).
  { apply (ordered_same R0).
    - intros k k' [i [i' [A [B L]]]] [j [j' [A' [B' L']]]]. rewrite (Uni k' j i' A' B) in L'. rewrite (Uni k j' i B' A) in L'. lia.
    - apply filter_sorted, S2.
    - exact S1.
    - intro k. rewrite filter_In. unfold new. destruct (in_dec (list_eq_dec Z.eq_dec) k cells) as [D|D]; simpl; split.
      + intros _. exact D.
      + intros _. split; [apply Sub, D|reflexivity].
      + intros [_ Q]. discriminate.
      + intro Q. contradiction. }
  rewrite Eq in Sp. exists (length (filter new cells')). set (off := length (filter new cells')) in *. split.
  - rewrite <- (F2_length _ _ _ Fc), <- (F2_length _ _ _ Fc'), Sp, app_length. reflexivity.
  - intros k s Es. destruct (F2_nth _ _ _ _ _ Fc Es) as [q [Eq' [_ [_ Q]]]].
    assert (Ec : nth_error cells' (off + k) = Some q) by (rewrite Sp, nth_error_app2, Nat.add_comm, Nat.add_sub by (unfold off; lia); exact Eq').
    destruct (F2_nth_l _ _ _ _ _ Fc' Ec) as [s' [Es' [_ [_ Q']]]]. exists s'. split; [exact Es'|]. intro j. rewrite Q, Q'. split.
    + intros [y [Ey L]]. pose proof (nth_error_lt _ _ _ Ey) as Lj. split; [|exact Lj]. exists y. rewrite Old by exact Lj. auto.
    + intros [[y [Ey L]] Hj]. rewrite Old in Ey by exact Hj. exists y. auto.
Qed.
Print Assumptions C70_standard_sets.

(** ** C70: so with either no node and no edge is lost, and components are only joined. *)
Theorem C70_cubical_graph : forall m eps Y Z lo hi (c : cubical RA) ov alg,
  cubical_input m eps Y lo hi c ov -> cubical_input m eps (Y ++ Z) lo hi c ov -> 0 < ov < 1 -> alg <> OtherAlgorithm ->
  let opens := cubical_apply RA eps alg c Y in let opens' := cubical_apply RA eps alg c (Y ++ Z) in
  exists off, (alg = Proximity -> off = 0%nat) /\
  (alg = Standard -> length (yields opens') = (off + length (yields opens))%nat) /\
  forall (S : Type) (X X' : list S),
  (forall g g', mapper_graph X opens (fun _ => trivial_clustering) = Ok g -> mapper_graph X' opens' (fun _ => trivial_clustering) = Ok g' ->
     keeps (length Y) off g g') /\
  (forall comps comps', mapper_connected_components X opens (fun _ => trivial_clustering) = Ok comps ->
     mapper_connected_components X' opens' (fun _ => trivial_clustering) = Ok comps' -> splits_components comps comps').
Proof.
  intros m eps Y Z lo hi c ov alg I I' H Ha. cbv zeta.
  assert (Good : forall V, cubical_input m eps V lo hi c ov -> sets_nodup (yields (cubical_apply RA eps alg c V)) /\ ~ In [] (yields (cubical_apply RA eps alg c V))).
  { intros V IV. destruct (C29_cubical_covers m eps V lo hi c ov alg IV H Ha) as [_ [_ F]]. split.
    - apply Forall_forall. intros s Is. destruct (F s Is) as [_ [x [k [_ [_ [N _]]]]]]. exact N.
    - intro Q. destruct (F _ Q) as [N _]. apply N. reflexivity. }
  destruct (Good Y I) as [N E]. destruct (Good (Y ++ Z) I') as [N' E'].
  assert (G : exists off, (alg = Proximity -> off = 0%nat) /\
    (alg = Standard -> length (yields (cubical_apply RA eps alg c (Y ++ Z))) = (off + length (yields (cubical_apply RA eps alg c Y)))%nat) /\
    grows (length Y) off (yields (cubical_apply RA eps alg c Y)) (yields (cubical_apply RA eps alg c (Y ++ Z)))).
  { destruct alg; [| |contradiction].
    - exists 0%nat. split; [reflexivity|]. split; [discriminate|]. exact (C70_proximity_sets m eps Y Z lo hi c ov I I' H).
    - destruct (C70_standard_sets m eps Y Z lo hi c ov I I' H) as [off [L G]]. exists off. split; [discriminate|]. split; [intros _; exact L|exact G]. }
  destruct G as [off [O1 [O2 G]]]. exists off. split; [exact O1|]. split; [exact O2|]. intros S X X'. split.
  - intros g g' Hg Hg'. exact (graph_keeps X X' _ off _ _ g g' Hg Hg' N N' E E' G).
  - intros comps comps' Hc Hc'. exact (components_keep X X' _ off _ _ comps comps' Hc Hc' G).
Qed.
Print Assumptions C70_cubical_graph.

(** Non-vacuity: the points 0, 9/10, 3 and a further one in between. *)
Example C70_hypotheses_met : forall eps, 0 <= eps <= 1 ->
  cubical_input 1 eps demo_X (fun _ => 0) (fun _ => 3) demo_c (1 / 2) /\
  cubical_input 1 eps (demo_X ++ [[2]]) (fun _ => 0) (fun _ => 3) demo_c (1 / 2).
Proof.
  intros eps He. split; [apply C28_hypotheses_met, He|]. split; auto; try (simpl; lia); try discriminate.
  - repeat constructor.
  - intros j Hj. assert (j = 0)%nat by lia. subst j. split; [|split].
    + exists [0]. split; [left|]; reflexivity.
    + exists [3]. split; [right; right; left|]; reflexivity.
    + intros x Hx. simpl in Hx. destruct Hx as [<-|[<-|[<-|[<-|[]]]]]; unfold coord; simpl; lra.
  - reflexivity.
Qed.
Open Scope Z_scope.
Definition dist_z (x y : Z) : Z := Z.abs (x - y).
Definition balls_z (X : list Z) : gen (list nat) := ball_apply Z.leb Z.ltb (fun a b => Z.abs (a - b)) 0 dist_z (mkball 3 tp_flat 1 None) X.
Definition neighbours_z (X : list Z) : gen (list nat) := knn_apply Z.leb Z.ltb (fun a b => Z.abs (a - b)) 0 dist_z (mkknn 2 tp_flat None 0) X.
Definition grid_q (alg : cubical_algorithm) (X : list (list Q)) : gen (list nat) := cubical_apply QA (1 # 1000)%Q alg (@mkcub QA 3 (Some (1 # 4))%Q tp_flat 1 None) X.
Example C70_runs :
  balls_z [0; 5; 10] = mkgen [[0]; [1]; [2]]%nat None /\
  balls_z ([0; 5; 10] ++ [2; 20; 5]) = mkgen [[0; 3]; [1; 5]; [2]; [4]]%nat None /\
  grid_q Standard [[0]; [9]; [1]]%Q = mkgen [[1]; [0; 2]]%nat None /\
  grid_q Standard ([[0]; [9]; [1]] ++ [[5]; [8]])%Q = mkgen [[3]; [4; 1]; [0; 2]]%nat None.
Proof. split; [|split; [|split]]; vm_compute; reflexivity. Qed.

(** ** C70: false for [KNNCover]: the new row takes the place of an old one. *)
Theorem C70_neighbours_refuted : exists X Y : list Z,
  stops (neighbours_z X) = None /\ stops (neighbours_z (X ++ Y)) = None /\
  ~ exists off, grows (length X) off (yields (neighbours_z X)) (yields (neighbours_z (X ++ Y))).
Proof.
  exists [0; 10], [1]. split; [vm_compute; reflexivity|]. split; [vm_compute; reflexivity|]. intros [off G].
  destruct (G 0%nat [1; 0]%nat ltac:(vm_compute; reflexivity)) as [s [Es Q]]. apply nth_error_In in Es.
  destruct (proj1 (Q 0%nat)) as [A _]; [right; left; reflexivity|]. destruct (proj1 (Q 1%nat)) as [B _]; [left; reflexivity|].
  vm_compute in Es. destruct Es as [<-|[<-|[]]]; simpl in A, B; intuition discriminate.
Qed.
Print Assumptions C70_neighbours_refuted.

(** ** C70: false for the cubical covers if the new row changes the bounds of a column. *)
Theorem C70_bounds_refuted : forall alg, alg <> OtherAlgorithm -> exists X Y : list (list Q),
  stops (grid_q alg X) = None /\ stops (grid_q alg (X ++ Y)) = None /\
  ~ exists off, grows (length X) off (yields (grid_q alg X)) (yields (grid_q alg (X ++ Y))).
Proof.
  intros alg Ha. exists [[0]; [9]; [5]]%Q, [[100]]%Q. destruct alg; [| |contradiction];
    (split; [vm_compute; reflexivity|]; split; [vm_compute; reflexivity|]; intros [off G]).
  - destruct (G 0%nat [0]%nat ltac:(vm_compute; reflexivity)) as [s [Es Q]]. apply nth_error_In in Es.
    destruct (proj1 (Q 0%nat)) as [A _]; [left; reflexivity|]. pose proof (proj2 (Q 1%nat)) as B.
    vm_compute in Es. destruct Es as [<-|[<-|[]]]; simpl in A, B; [|intuition discriminate].
    destruct B as [B|[]]; [|discriminate]. split; [auto|lia].
  - destruct (G 2%nat [0]%nat ltac:(vm_compute; reflexivity)) as [s [Es Q]]. apply nth_error_In in Es.
    destruct (proj1 (Q 0%nat)) as [A _]; [left; reflexivity|]. pose proof (proj2 (Q 1%nat)) as B.
    vm_compute in Es. destruct Es as [<-|[<-|[]]]; simpl in A, B; [intuition discriminate|].
    destruct B as [B|[]]; [|discriminate]. split; [auto|lia].
Qed.
Print Assumptions C70_bounds_refuted.
