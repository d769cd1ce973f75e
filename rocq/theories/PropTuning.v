(** C55: parameters of the search trees do not change the Mapper graph. *)
From Coq Require Import Permutation Reals Lra.
From Verif Require Import Base ModelCore SpecCore ModelVPTree ModelArith ModelCover SpecMetric SpecCover SpecCubical
  SpecTuning TuningProp TuningCover PropCover.
Open Scope Z_scope.

(** ** C55: tree parameters and the Mapper graph *)

(** Open sets in another order of their points, and a clustering that does not look
    at this order: the same graph and the same components, except for names. *)
Theorem C55_order_of_points :
  forall (S : Type) (X : list S) (clust : clustering S) (opens opens' : gen (list nat)),
  order_free clust -> same_sets opens opens' -> sets_nodup (yields opens) ->
  (forall g, mapper_graph X opens clust = Ok g ->
     exists g', mapper_graph X opens' clust = Ok g' /\ same_graph g g') /\
  (forall comps, mapper_connected_components X opens clust = Ok comps ->
     exists comps', mapper_connected_components X opens' clust = Ok comps' /\ same_partition comps comps').
Proof.
  intros S X clust opens opens' H1 H2 H3. split; [exact (graphs_same X clust H1 opens opens' H2 H3)|exact (components_same X clust H1 opens opens' H2 H3)].
Qed.
Print Assumptions C55_order_of_points.

(** [BallCover]: kind of tree, leaf capacity, leaf radius, pivoting and randomness
    change neither the sets nor the graph. *)
Theorem C55_ball_cover :
  forall (S T : Type) (X : list S) (Y : list T) (clust : clustering S) (P : T -> Prop) (d : T -> T -> R) (c c' : ball_cover R),
  pseudo_metric_on P d -> Forall P Y -> bc_radius c = bc_radius c' ->
  (1 <= bc_leaf_capacity c)%nat -> tp_kind (bc_tree c) <> OtherKind ->
  (1 <= bc_leaf_capacity c')%nat -> tp_kind (bc_tree c') <> OtherKind ->
  let opens := ball_apply Rleb Rltb Rgap 0%R d c Y in let opens' := ball_apply Rleb Rltb Rgap 0%R d c' Y in
  same_sets opens opens' /\
  (order_free clust -> forall g, mapper_graph X opens clust = Ok g ->
     exists g', mapper_graph X opens' clust = Ok g' /\ same_graph g g').
Proof.
  intros S T X Y clust P d c c' Hd HY Er H1 H2 H3 H4. cbv zeta.
  pose proof (ball_same P d Hd Y HY c c' Er H1 H2 H3 H4) as B. split; [exact B|]. intro F.
  exact (graphs_same X clust F _ _ B (ball_nodup P d Y c Hd HY H1 H2)).
Qed.
Print Assumptions C55_ball_cover.

(** [KNNCover], when no two points are equally far from a third (or from one of them). *)
Theorem C55_knn_cover :
  forall (S T : Type) (X : list S) (Y : list T) (clust : clustering S) (P : T -> Prop) (d : T -> T -> R) (c c' : knn_cover R),
  pseudo_metric_on P d -> Forall P Y -> kc_neighbors c = kc_neighbors c' ->
  (1 <= kc_neighbors c)%nat -> tp_kind (kc_tree c) <> OtherKind -> tp_kind (kc_tree c') <> OtherKind ->
  (forall x i j y z, In x Y -> i <> j -> nth_error Y i = Some y -> nth_error Y j = Some z -> d x y <> d x z) ->
  let opens := knn_apply Rleb Rltb Rgap 0%R d c Y in let opens' := knn_apply Rleb Rltb Rgap 0%R d c' Y in
  same_sets opens opens' /\
  (order_free clust -> forall g, mapper_graph X opens clust = Ok g ->
     exists g', mapper_graph X opens' clust = Ok g' /\ same_graph g g').
Proof.
  intros S T X Y clust P d c c' Hd HY Er H1 H2 H3 H4. cbv zeta.
  pose proof (knn_same P d Hd Y HY c c' Er H4 H1 H2 H3) as B. split; [exact B|]. intro F.
  exact (graphs_same X clust F _ _ B (knn_nodup P d Y c Hd HY H1 H2)).
Qed.
Print Assumptions C55_knn_cover.

(** [CubicalCover], both algorithms. *)
Theorem C55_cubical_cover :
  forall (S : Type) (X : list S) (clust : clustering S) m eps Y lo hi (c c' : cubical RA) ov alg,
  cubical_input m eps Y lo hi c ov -> (0 < ov < 1)%R ->
  cu_n_intervals RA c = cu_n_intervals RA c' -> cu_overlap_frac RA c = cu_overlap_frac RA c' ->
  (1 <= cu_leaf_capacity RA c')%nat -> tp_kind (cu_tree RA c') <> OtherKind ->
  let opens := cubical_apply RA eps alg c Y in let opens' := cubical_apply RA eps alg c' Y in
  same_sets opens opens' /\
  (order_free clust -> forall g, mapper_graph X opens clust = Ok g ->
     exists g', mapper_graph X opens' clust = Ok g' /\ same_graph g g').
Proof.
  intros S X clust m eps Y lo hi c c' ov alg [] Ho En Eo H1 H2. cbv zeta.
  assert (B : same_sets (cubical_apply RA eps alg c Y) (cubical_apply RA eps alg c' Y)) by (apply (cubical_same m eps Y c c' ov alg); tauto).
  split; [exact B|]. intro F. apply (graphs_same X clust F _ _ B). apply (cubical_nodup m eps Y c ov alg); tauto.
Qed.
Print Assumptions C55_cubical_cover.

(** A clustering by parity that names clusters in the order of their first points:
    its labels depend on the order, its clusters do not. *)
Definition by_first : clustering Z := fun _ xs =>
  match xs with
  | [] => Ok []
  | x :: _ => Ok (map (fun y => if Bool.eqb (Z.even x) (Z.even y) then 0 else 1) xs)
  end.
Lemma by_first_order_free : order_free by_first.
Proof.
  intros k s xs xs' lbls [P M] E.
  assert (L : length s = length xs) by (rewrite (Permutation_length P); apply seq_length).
  assert (L' : length xs' = length s) by (apply (f_equal (@length _)) in M; rewrite !map_length in M; congruence).
  assert (U : forall zs ls, by_first k zs = Ok ls -> forall p q, together ls p q <->
     exists y z, nth_error zs p = Some y /\ nth_error zs q = Some z /\ Z.even y = Z.even z).
  { intros [|x zs] ls H p q; simpl in H; injection H as <-.
    - split; [intros [l [_ [A _]]]; destruct p; discriminate|intros [y [z [A _]]]; destruct p; discriminate].
    - set (w := x :: zs). change (match Z.even x with _ => _ end :: _) with (map (fun y => if Bool.eqb (Z.even x) (Z.even y) then 0 else 1) w).
      split.
      + intros [l [_ [A B]]]. rewrite nth_error_map in A, B. destruct (nth_error w p) as [y|]; [|discriminate]. destruct (nth_error w q) as [z|]; [|discriminate].
        exists y, z. repeat (split; [reflexivity|]). simpl in A, B. injection A as A. injection B as B.
        destruct (Z.even x), (Z.even y), (Z.even z); simpl in *; congruence.
      + intros [y [z [A [B Ev]]]]. exists (if Bool.eqb (Z.even x) (Z.even y) then 0 else 1). rewrite !nth_error_map, A, B. simpl. rewrite Ev.
        split; [destruct (Bool.eqb _ _); lia|auto]. }
  assert (exists lbls', by_first k xs' = Ok lbls') as [lbls' E'] by (destruct xs'; eexists; reflexivity).
  exists lbls'. split; [exact E'|]. intros a b p q Ha Hb. rewrite (U _ _ E), (U _ _ E').
  destruct (map_nth_some _ _ _ _ _ M Ha) as [y [A1 A2]]. destruct (map_nth_some _ _ _ _ _ M Hb) as [z [B1 B2]].
  rewrite A1, A2, B1, B2. reflexivity.
Qed.

(** Two kinds of trees list the points of a ball in different orders; labels differ,
    graphs are the same. *)
Definition numbers : list Z := [0; 4; 2; 1; 3; 6; 5].
Definition tree1 : tree_params := mktp Flat Disabled (fun c => c).
Definition tree2 : tree_params := mktp Hierarchical Disabled (fun c => c).
Definition balls (t : tree_params) : gen (list nat) := ball_apply Z.leb Z.ltb zgap 0 zmetric (mkball 3 t 1 None) numbers.
Example C55_hypotheses_met :
  order_free by_first /\ same_sets (balls tree1) (balls tree2) /\ sets_nodup (yields (balls tree1)) /\
  yields (balls tree1) = [[0; 3; 2]; [2; 4; 1; 5; 6]]%nat /\ yields (balls tree2) = [[0; 3; 2]; [4; 1; 5; 6; 2]]%nat /\
  mapper_labels numbers (balls tree1) by_first = Ok [[0]; [2]; [0; 2]; [1]; [3]; [2]; [3]] /\
  mapper_labels numbers (balls tree2) by_first = Ok [[0]; [3]; [0; 3]; [1]; [2]; [3]; [2]].
Proof.
  assert (E1 : balls tree1 = mkgen [[0; 3; 2]; [2; 4; 1; 5; 6]]%nat None) by (vm_compute; reflexivity).
  assert (E2 : balls tree2 = mkgen [[0; 3; 2]; [4; 1; 5; 6; 2]]%nat None) by (vm_compute; reflexivity).
  rewrite E1, E2. split; [exact by_first_order_free|]. split.
  { split; [reflexivity|]. constructor; [reflexivity|]. constructor; [|constructor]. apply (Permutation_cons_append [4; 1; 5; 6]%nat 2%nat). }
  split; [repeat constructor; simpl; intuition lia|]. repeat (split; [reflexivity|]). split; vm_compute; reflexivity.
Qed.

(** The hypotheses for each kind of cover, with different trees. *)
Example C55_covers_hypotheses_met :
  let Y := [0; 1; 3]%R in let d := fun a b : R => Rabs (a - b) in
  pseudo_metric_on (fun _ => True) d /\ Forall (fun _ => True) Y /\
  (forall x i j y z, In x Y -> i <> j -> nth_error Y i = Some y -> nth_error Y j = Some z -> d x y <> d x z) /\
  forall eps, (0 <= eps <= 1)%R -> cubical_input 1 eps demo_X (fun _ => 0%R) (fun _ => 3%R) demo_c (1 / 2)%R.
Proof.
  cbv zeta. split; [exact C25_real_line|]. split; [repeat constructor|]. split; [|exact C28_hypotheses_met].
  intros x i j y z Hx Hij Hy Hz. unfold Rabs.
  destruct i as [|[|[|i]]]; simpl in Hy; try (destruct i; discriminate); injection Hy as <-;
  destruct j as [|[|[|j]]]; simpl in Hz; try (destruct j; discriminate); injection Hz as <-;
  try contradiction; destruct Hx as [<-|[<-|[<-|[]]]]; repeat destruct (Rcase_abs _); intro; lra.
Qed.

(** With a clustering that looks at the order the graph depends on the kind of tree. *)
Theorem C55_order_dependent_refuted : exists (clust : clustering Z) (Y : list Z) (c c' : ball_cover Z) g g',
  bc_radius c = bc_radius c' /\ (1 <= bc_leaf_capacity c)%nat /\ tp_kind (bc_tree c) <> OtherKind /\
  (1 <= bc_leaf_capacity c')%nat /\ tp_kind (bc_tree c') <> OtherKind /\
  mapper_graph Y (ball_apply Z.leb Z.ltb zgap 0 zmetric c Y) clust = Ok g /\
  mapper_graph Y (ball_apply Z.leb Z.ltb zgap 0 zmetric c' Y) clust = Ok g' /\ ~ same_graph g g'.
Proof.
  exists (fun _ xs => Ok (match xs with [] => [] | _ :: r => 0 :: map (fun _ => 1) r end)), numbers, (mkball 3 tree1 1%nat None), (mkball 3 tree2 1%nat None).
  do 2 eexists. split; [reflexivity|]. split; [simpl; lia|]. split; [discriminate|]. split; [simpl; lia|]. split; [discriminate|].
  split; [vm_compute; reflexivity|]. split; [vm_compute; reflexivity|].
  intros [f [_ [_ [_ [A _]]]]]. specialize (A 2 1%nat [2]%nat). unfold has_node, node_attr in A. simpl in A.
  destruct (proj1 (A ltac:(auto 10)) ltac:(auto 10)) as [Q|[Q|[Q|[Q|Q]]]]; [discriminate..|contradiction].
Qed.
Print Assumptions C55_order_dependent_refuted.

(** With points equally far, [KNNCover] depends on the leaf capacity, even in the number of its sets. *)
Theorem C55_knn_ties_refuted : exists (Y : list Z) (c c' : knn_cover Z),
  kc_neighbors c = kc_neighbors c' /\ (1 <= kc_neighbors c)%nat /\
  tp_kind (kc_tree c) <> OtherKind /\ tp_kind (kc_tree c') <> OtherKind /\
  let opens := knn_apply Z.leb Z.ltb zgap 0 zmetric c Y in let opens' := knn_apply Z.leb Z.ltb zgap 0 zmetric c' Y in
  stops opens = None /\ stops opens' = None /\ length (yields opens) <> length (yields opens').
Proof.
  exists [0; 2; 1; 4; 4; 1; 2; 0; 2], (mkknn 2%nat tree1 (Some 1%nat) 0), (mkknn 2%nat tree1 (Some 9%nat) 0).
  split; [reflexivity|]. split; [simpl; lia|]. split; [discriminate|]. split; [discriminate|].
  cbv zeta. split; [vm_compute; reflexivity|]. split; [vm_compute; reflexivity|]. vm_compute. discriminate.
Qed.
Print Assumptions C55_knn_ties_refuted.
