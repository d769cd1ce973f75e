(** C69: maps between Mapper graphs, and the nerve of a cover. *)
From Coq Require Import QArith Reals Lra Lia Sorted.
From Verif Require Import Base BaseFacts ModelArith ModelCore SpecCore SpecMetric ModelCover SpecCover SpecCubical SpecNerve NerveFacts
  CoreLabels CoreProp OverlapFacts PackingFacts.
From Verif Require PropCover.
Import PropCover.
Open Scope Z_scope.

(** ** C69: with [TrivialClustering] the graph is the nerve of the cover, and its nodes are numbered
    by the positions of the sets. *)
Theorem C69_nerve : forall (S : Type) (X : list S) (opens : gen (list nat)) g,
  mapper_graph X opens (fun _ => trivial_clustering) = Ok g -> sets_nodup (yields opens) -> ~ In [] (yields opens) ->
  is_nerve (yields opens) g.
Proof. exact @trivial_nerve. Qed.
Print Assumptions C69_nerve.

(** ** C69: if the clusters of one run lie in clusters of another, the graph of the first maps to
    the graph of the second, and its components are finer. *)
Theorem C69_refined : forall (S : Type) (X : list S) (opens opens' : gen (list nat)) (clust clust' : clustering S) g g',
  sets_nodup (yields opens) -> sets_nodup (yields opens') -> refines X (yields opens) clust (yields opens') clust' ->
  mapper_graph X opens clust = Ok g -> mapper_graph X opens' clust' = Ok g' ->
  exists f, maps_nodes f g g' /\ forall a b, adjacent g a b -> f a = f b \/ adjacent g' (f a) (f b).
Proof. intros S X opens opens' clust clust' g g' N N' R. exact (refines_map X opens opens' clust clust' N N' g g' R). Qed.
Print Assumptions C69_refined.
Theorem C69_refined_components : forall (S : Type) (X : list S) (opens opens' : gen (list nat)) (clust clust' : clustering S) comps comps',
  refines X (yields opens) clust (yields opens') clust' ->
  mapper_connected_components X opens clust = Ok comps -> mapper_connected_components X opens' clust' = Ok comps' ->
  splits_components comps comps'.
Proof. intros S X opens opens' clust clust' comps comps'. exact (refines_components X opens opens' clust clust' comps comps'). Qed.
Print Assumptions C69_refined_components.

(** ** C69: a clustering that splits the clusters of another one further gives a graph that maps to
    the other's graph, edges to edges; onto all its points and edges if it leaves out no more points. *)
Theorem C69_finer_clustering : forall (S : Type) (X : list S) (opens : gen (list nat)) (clust clust' : clustering S) g g',
  sets_nodup (yields opens) -> finer X (yields opens) clust clust' ->
  mapper_graph X opens clust = Ok g -> mapper_graph X opens clust' = Ok g' ->
  exists f, maps_nodes f g g' /\ (forall a b, adjacent g a b -> adjacent g' (f a) (f b)) /\
    (no_more_noise X (yields opens) clust clust' ->
      (forall z n ids i, node_attr g' z n ids -> In i ids -> exists z0 n0 ids0, node_attr g z0 n0 ids0 /\ In i ids0 /\ f z0 = z) /\
      forall a b, adjacent g' a b -> exists a0 b0, adjacent g a0 b0 /\ f a0 = a /\ f b0 = b).
Proof. intros S X opens clust clust' g g' N F. exact (finer_map X opens clust clust' N F g g'). Qed.
Print Assumptions C69_finer_clustering.
Theorem C69_finer_components : forall (S : Type) (X : list S) (opens : gen (list nat)) (clust clust' : clustering S) comps comps',
  sets_nodup (yields opens) -> finer X (yields opens) clust clust' ->
  mapper_connected_components X opens clust = Ok comps -> mapper_connected_components X opens clust' = Ok comps' ->
  splits_components comps comps'.
Proof.
  intros S X opens clust clust' comps comps' N F. apply refines_components. exact (finer_refines X opens clust clust' N F).
Qed.
Print Assumptions C69_finer_components.

(** ** C69: so the graph of any clustering maps to the nerve of the cover, edges to edges. *)
Theorem C69_into_nerve : forall (S : Type) (X : list S) (opens : gen (list nat)) (clust : clustering S) g,
  sets_nodup (yields opens) -> ~ In [] (yields opens) -> mapper_graph X opens clust = Ok g ->
  exists g' f, mapper_graph X opens (fun _ => trivial_clustering) = Ok g' /\ is_nerve (yields opens) g' /\
    maps_nodes f g g' /\ forall a b, adjacent g a b -> adjacent g' (f a) (f b).
Proof.
  intros S X opens clust g N Ne H.
  assert (exists out', mapper_labels X opens (fun _ => trivial_clustering) = Ok out') as [out' H'].
  { unfold mapper_graph in H. apply bind_ok in H. destruct H as [out [H _]].
    destruct (mapper_labels_closed X opens clust out H) as [St [parts [Hp [Lp _]]]]. apply mapper_labels_total; [exact St|].
    intros k ids Ek. destruct (nth_error_ex parts k) as [[ids' lbls] Ep]; [rewrite Lp; exact (nth_error_lt _ _ _ Ek)|].
    apply Hp in Ep. destruct Ep as [E [xs [Fx _]]]. assert (ids' = ids) by congruence. subst ids'.
    exists (map (fun _ => 0) xs). split; [exact Ek|]. exists xs. split; [exact Fx|reflexivity]. }
  destruct (graph_exists X opens _ out' H') as [g' G']. 
  destruct (finer_map X opens clust _ N (finer_trivial X opens clust out' H') g g' H G') as [f [F1 [F2 _]]].
  exists g', f. split; [exact G'|]. split; [exact (trivial_nerve X opens g' G' N Ne)|]. split; assumption.
Qed.
Print Assumptions C69_into_nerve.

(** Non-vacuity: two sets with a common point, the first split in two by the clustering. *)
Definition four : list Z := [1; 2; 3; 4].
Definition two_sets : gen (list nat) := mkgen [[0; 1; 2]; [2; 3]]%nat None.
Definition small_big : clustering Z := fun _ xs => Ok (map (fun x => if x <=? 1 then 1 else 0) xs).
Example C69_hypotheses_met :
  sets_nodup (yields two_sets) /\ ~ In [] (yields two_sets) /\
  finer four (yields two_sets) small_big (fun _ => trivial_clustering) /\
  (exists g, mapper_graph four two_sets small_big = Ok g /\ map fst (g_nodes g) = [1; 0; 2] /\ adjacent g 0 2 /\ ~ adjacent g 1 0) /\
  exists g, mapper_graph four two_sets (fun _ => trivial_clustering) = Ok g /\ map fst (g_nodes g) = [0; 1] /\ adjacent g 0 1.
Proof.
  split; [repeat constructor; simpl; intuition discriminate|]. split; [simpl; intuition discriminate|].
  split; [eapply finer_trivial; vm_compute; reflexivity|]. split; (eexists; split; [vm_compute; reflexivity|]); (split; [reflexivity|]).
  - split; [eexists; split; [right; left; reflexivity|left; reflexivity]|].
    intros [nb [I I']]. simpl in I. destruct I as [E|[E|[E|[]]]]; inversion E; subst nb; simpl in I'; intuition discriminate.
  - eexists; split; [left; reflexivity|left; reflexivity].
Qed.

(** ** C69: with [StandardCubicalCover], raising [overlap_frac] keeps the sets in place and only adds points to them. *)
Theorem C69_more_overlap_sets : forall m eps X lo hi (c c' : cubical RA) ov ov',
  cubical_input m eps X lo hi c ov -> cubical_input m eps X lo hi c' ov' -> (0 < ov <= ov')%R -> (ov' < 1)%R ->
  cu_n_intervals RA c = cu_n_intervals RA c' ->
  Forall2 (@incl nat) (yields (cubical_apply RA eps Standard c X)) (yields (cubical_apply RA eps Standard c' X)).
Proof.
  intros m eps X lo hi c c' ov ov' I I' H H1 En.
  destruct (C30_standard_cells m eps X lo hi c ov I) as [_ [cells [Nc [Mc [Fc Oc]]]]]; [lra|].
  destruct (C30_standard_cells m eps X lo hi c' ov' I') as [_ [cells' [Nc' [Mc' [Fc' Oc']]]]]; [lra|].
  cbv zeta in *. rewrite <- En in *. set (n := cu_n_intervals RA c) in *. set (p := grid_pos n eps lo hi) in *.
  assert (First : forall k, (exists x, In x X /\ in_cell m n p x k) -> exists i, first_in_cell m n p X k i).
  { intros k [x [Ix Cx]]. apply In_nth_error in Ix. destruct Ix as [i Ei]. revert x Ei Cx. induction i as [i IH] using lt_wf_ind. intros x Ei Cx.
    destruct (Classical_Prop.classic (exists j y, (j < i)%nat /\ nth_error X j = Some y /\ in_cell m n p y k)) as [[j [y [L [Ej Cy]]]]|No].
    - exact (IH j L y Ej Cy).
    - exists i. split; [exists x; auto|]. intros j y L Ej Cy. apply No. exists j, y. auto. }
  pose (R := fun k k' => exists i i', first_in_cell m n p X k i /\ first_in_cell m n p X k' i' /\ (i' < i)%nat).
  assert (Uni : forall k i j, first_in_cell m n p X k i -> first_in_cell m n p X k j -> i = j).
  { intros k i j [[x [Ex Cx]] Hi] [[y [Ey Cy]] Hj]. destruct (Nat.lt_trichotomy i j) as [L|[L|L]]; [exfalso|exact L|exfalso].
    - exact (Hj i x L Ex Cx).
    - exact (Hi j y L Ey Cy). }
  assert (Sorted_ : forall cs, (forall k, In k cs <-> exists x, In x X /\ in_cell m n p x k) ->
    (forall a b k k' i i', (a < b)%nat -> nth_error cs a = Some k -> nth_error cs b = Some k' ->
       first_in_cell m n p X k i -> first_in_cell m n p X k' i' -> (i' < i)%nat) -> StronglySorted R cs).
  { intros cs Ms Os. apply sorted_nth. intros a b k k' L Ea Eb.
    destruct (First k) as [i Hi]; [apply Ms; exact (nth_error_In _ _ Ea)|]. destruct (First k') as [i' Hi']; [apply Ms; exact (nth_error_In _ _ Eb)|].
    exists i, i'. split; [exact Hi|]. split; [exact Hi'|]. exact (Os a b k k' i i' L Ea Eb Hi Hi'). }
  assert (E : cells = cells').
  { apply (ordered_same R).
    - intros k k' [i [i' [A [B L]]]] [j [j' [A' [B' L']]]]. rewrite (Uni k' j i' A' B) in L'. rewrite (Uni k j' i B' A) in L'. lia.
    - apply Sorted_; assumption.
    - apply Sorted_; assumption.
    - intro k. rewrite Mc, Mc'. reflexivity. }
  subst cells'. clear Oc Oc' Mc Mc' Nc Nc' First Sorted_.
  assert (Le : (1 / (2 - 2 * ov) <= 1 / (2 - 2 * ov'))%R).
  { unfold Rdiv. rewrite !Rmult_1_l. apply Rinv_le_contravar; lra. }
  clear - Fc Fc' Le. revert Fc'. generalize (yields (cubical_apply RA eps Standard c' X)).
  induction Fc as [|k s cells l [_ [_ Q]] Fc IH]; intros l' Fc'; inversion Fc' as [|? s' ? l2 [_ [_ Q']] Fc2]; subst; constructor.
  - intros i Ii. apply Q in Ii. apply Q'. destruct Ii as [x [Ex Cx]]. exists x. split; [exact Ex|]. intros j Hj. specialize (Cx j Hj). lra.
  - apply IH, Fc2.
Qed.
Print Assumptions C69_more_overlap_sets.

(** ** C69: so with [TrivialClustering] the nodes stay, gain points and edges, and components are only joined. *)
Theorem C69_more_overlap : forall m eps Y lo hi (c c' : cubical RA) ov ov',
  cubical_input m eps Y lo hi c ov -> cubical_input m eps Y lo hi c' ov' -> (0 < ov <= ov')%R -> (ov' < 1)%R ->
  cu_n_intervals RA c = cu_n_intervals RA c' ->
  forall (T : Type) (X : list T) g g',
  mapper_graph X (cubical_apply RA eps Standard c Y) (fun _ => trivial_clustering) = Ok g ->
  mapper_graph X (cubical_apply RA eps Standard c' Y) (fun _ => trivial_clustering) = Ok g' ->
  (forall z, has_node g z <-> has_node g' z) /\ maps_nodes (fun z => z) g g' /\
  (forall a b, adjacent g a b -> adjacent g' a b) /\
  forall comps comps', mapper_connected_components X (cubical_apply RA eps Standard c Y) (fun _ => trivial_clustering) = Ok comps ->
    mapper_connected_components X (cubical_apply RA eps Standard c' Y) (fun _ => trivial_clustering) = Ok comps' ->
    splits_components comps comps'.
Proof.
  intros m eps Y lo hi c c' ov ov' I I' H H1 En T X g g' G G'.
  pose proof (C69_more_overlap_sets m eps Y lo hi c c' ov ov' I I' H H1 En) as F.
  assert (Facts : forall c0 ov0, cubical_input m eps Y lo hi c0 ov0 -> (0 < ov0 < 1)%R ->
    sets_nodup (yields (cubical_apply RA eps Standard c0 Y)) /\ ~ In [] (yields (cubical_apply RA eps Standard c0 Y))).
  { intros c0 ov0 I0 H0. destruct (C30_standard_cells m eps Y lo hi c0 ov0 I0 H0) as [_ [cells [_ [_ [Fc _]]]]]. cbv zeta in Fc. split.
    - unfold sets_nodup. clear - Fc. induction Fc as [|k s l l' [_ [Q _]] Fc IH]; constructor; assumption.
    - intro Q. destruct (F2_in _ _ _ _ Fc Q) as [k [_ [Q' _]]]. apply Q'. reflexivity. }
  destruct (Facts c ov I) as [N Ne]; [lra|]. destruct (Facts c' ov' I') as [N' Ne']; [lra|]. clear Facts.
  destruct (trivial_nerve X _ g G N Ne) as [V1 [V2 V3]]. destruct (trivial_nerve X _ g' G' N' Ne') as [V1' [V2' V3']].
  split; [|split; [|split]].
  - intro z. rewrite V1, V1'. split; intros [k [s [-> E]]].
    + destruct (F2_nth_l _ _ _ _ _ F E) as [s' [E' _]]. exists k, s'. auto.
    + destruct (F2_nth _ _ _ _ _ F E) as [s' [E' _]]. exists k, s'. auto.
  - intros z n ids A. assert (Hz : has_node g z) by (apply in_map_iff; exists (z, (n, ids)); split; [reflexivity|exact A]).
    apply V1 in Hz. destruct Hz as [k [s [-> E]]]. destruct (V2 k s E) as [ids0 [A0 [_ Q0]]].
    destruct (graph_nodes_are_clusters X _ _ g G N) as [W _]. pose proof (attr_unique g _ _ _ (proj1 W) A A0) as Q. injection Q as -> ->.
    destruct (F2_nth_l _ _ _ _ _ F E) as [s' [E' In_]]. destruct (V2' k s' E') as [ids' [A' [_ Q']]].
    exists (length s'), ids'. split; [exact A'|]. intros i Ii. apply Q', In_, Q0, Ii.
  - intros a b Ab.
    assert (Na : has_node g a /\ has_node g b).
    { destruct (graph_described X _ _ g G N) as [name [_ [Hn [_ [_ Ad]]]]]. apply Ad in Ab.
      destruct Ab as [_ [k [l [k' [l' [i [C1 [C2 [-> ->]]]]]]]]]. split; apply Hn; [exists k, l|exists k', l']; (split; [exists i; assumption|reflexivity]). }
    destruct Na as [Na Nb]. apply V1 in Na. apply V1 in Nb. destruct Na as [k [_ [-> _]]], Nb as [k' [_ [-> _]]].
    apply V3 in Ab. apply V3'. destruct Ab as [D [s [s' [i [E [E' [Is Is']]]]]]]. split; [exact D|].
    destruct (F2_nth_l _ _ _ _ _ F E) as [t [Et It]]. destruct (F2_nth_l _ _ _ _ _ F E') as [t' [Et' It']]. exists t, t', i. auto.
  - intros comps comps' Hc Hc'. refine (refines_components X _ _ _ _ comps comps' _ Hc Hc').
    unfold mapper_graph in G, G'. apply bind_ok in G. destruct G as [out [Ho _]]. apply bind_ok in G'. destruct G' as [out' [Ho' _]].
    exact (larger_refines X _ _ out Ho (ex_intro _ out' Ho') F).
Qed.
Print Assumptions C69_more_overlap.

(** Non-vacuity: C28_hypotheses_met meets the hypotheses. Five points on a line, overlap 1/51 and 1/6:
    the first gives two components, the second joins them. *)
Definition line5 : list (list Q) := [[0]; [3]; [21 # 20]; [39 # 20]; [1]]%Q.
Definition cover_q (ov : Q) (alg : cubical_algorithm) (X : list (list Q)) : gen (list nat) :=
  cubical_apply QA (1 # 1000)%Q alg (@mkcub QA 3 (Some ov) tp_flat 1 None) X.
Example C69_runs :
  yields (cover_q (1 # 51) Standard line5) = [[2; 3; 4]; [1]; [0; 4]]%nat /\
  yields (cover_q (1 # 6) Standard line5) = [[2; 3; 4]; [3; 1]; [0; 4; 2]]%nat /\
  mapper_connected_components line5 (cover_q (1 # 51) Standard line5) (fun _ => trivial_clustering) = Ok [0; 1; 0; 0; 0] /\
  mapper_connected_components line5 (cover_q (1 # 6) Standard line5) (fun _ => trivial_clustering) = Ok [0; 0; 0; 0; 0].
Proof. split; [|split; [|split]]; vm_compute; reflexivity. Qed.

(** ** C69: false for [ProximityCubicalCover]: a larger [overlap_frac] can split a component. *)
Definition line6 : list (list Q) := [[0]; [3]; [201 # 200]; [102 # 100]; [198 # 100]; [399 # 200]]%Q.
Theorem C69_proximity_more_overlap_refuted : exists X ov ov' comps comps',
  (0 < ov)%Q /\ (ov < ov')%Q /\ (ov' < 1)%Q /\
  mapper_connected_components X (cover_q ov Proximity X) (fun _ => trivial_clustering) = Ok comps /\
  mapper_connected_components X (cover_q ov' Proximity X) (fun _ => trivial_clustering) = Ok comps' /\
  ~ splits_components comps comps'.
Proof.
  exists line6, (1 # 51)%Q, (1 # 6)%Q.
  destruct (mapper_connected_components line6 (cover_q (1 # 51) Proximity line6) (fun _ => trivial_clustering)) as [comps|e] eqn:E; [|vm_compute in E; discriminate].
  destruct (mapper_connected_components line6 (cover_q (1 # 6) Proximity line6) (fun _ => trivial_clustering)) as [comps'|e] eqn:E'; [|vm_compute in E'; discriminate].
  exists comps, comps'. split; [reflexivity|]. split; [reflexivity|]. split; [reflexivity|]. split; [reflexivity|]. split; [reflexivity|].
  vm_compute in E, E'. injection E as <-. injection E' as <-. intro Q.
  destruct (Q 0%nat 1%nat _ _ _ eq_refl eq_refl ltac:(discriminate) eq_refl eq_refl) as [Q' _]. discriminate.
Qed.
Print Assumptions C69_proximity_more_overlap_refuted.
