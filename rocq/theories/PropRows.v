(** C59: the order of the rows of a dataset. *)
From Coq Require Import Permutation Reals Lra QArith.
From Verif Require Import Base ModelCore SpecCore ModelVPTree ModelArith ModelCover SpecCubical
  SpecTuning TuningProp TuningCover SpecRows RowsProp PropCover.
Open Scope Z_scope.

(** ** C59: the order of the rows *)

(** The same points in another order, a cover that finds the same sets of points,
    in any order, and a clustering that does not look at orders: the same graph
    and the same components, except for names and ids. *)
Theorem C59_row_order :
  forall (S : Type) (s : list nat) (X X' : list S) (clust : clustering S) (opens opens' : gen (list nat)),
  reordered s X X' -> order_free clust -> call_free clust -> same_cover s opens opens' -> sets_nodup (yields opens) ->
  (forall g, mapper_graph X opens clust = Ok g ->
     exists g', mapper_graph X' opens' clust = Ok g' /\ same_graph_of s g g') /\
  (forall comps, mapper_connected_components X opens clust = Ok comps ->
     exists comps', mapper_connected_components X' opens' clust = Ok comps' /\ same_partition_of s comps comps').
Proof.
  intros S s X X' clust opens opens' H1 H2 H3 H4 H5.
  split; [exact (rows_same s X X' clust H1 H2 H3 opens opens' H4 H5)|exact (rows_components s X X' clust H1 H2 H3 opens opens' H4 H5)].
Qed.
Print Assumptions C59_row_order.

(** The standard cubical cover finds the same sets. *)
Theorem C59_standard_cover : forall s m eps Y Y' lo hi (c : cubical RA) ov,
  cubical_input m eps Y lo hi c ov -> (0 < ov < 1)%R -> reordered s Y Y' ->
  same_cover s (cubical_apply RA eps Standard c Y) (cubical_apply RA eps Standard c Y').
Proof.
  intros s m eps Y Y' lo hi c ov Hin Ho Hre.
  assert (HIn : forall y, In y Y <-> In y Y').
  { intro y. split; intro I; apply In_nth_error in I as [i Hi].
    - eapply nth_error_In. eapply row_moved; eauto.
    - destruct (old_ex s Y Y' Hre i) as [j [Ej _]].
      + destruct (s_length s Y Y' Hre) as [_ <-]. apply nth_error_Some. congruence.
      + eapply nth_error_In. eapply row_back; eauto. }
  assert (Hin' : cubical_input m eps Y' lo hi c ov).
  { destruct Hin as [A B C D E F G H I]. split; auto.
    - rewrite Forall_forall in *. intros y Iy. apply D, HIn, Iy.
    - intro Z. apply E. destruct Y as [|y Y0]; [reflexivity|]. exfalso. rewrite Z in HIn. apply (HIn y). left. reflexivity.
    - intros j Hj. destruct (F j Hj) as [[x [Ix Ex]] [[y [Iy Ey]] Q]]. split; [exists x; split; [apply HIn, Ix|exact Ex]|].
      split; [exists y; split; [apply HIn, Iy|exact Ey]|]. intros z Iz. apply Q, HIn, Iz. }
  destruct (C30_standard_cells _ _ _ _ _ _ _ Hin Ho) as [St [cells [N [M [F _]]]]].
  destruct (C30_standard_cells _ _ _ _ _ _ _ Hin' Ho) as [St' [cells' [N' [M' [F' _]]]]].
  split; [congruence|].
  assert (P : Permutation cells' cells).
  { apply NoDup_Permutation; auto. intro k. rewrite M, M'. split; intros [x [I K]]; exists x; (split; [apply HIn, I|exact K]). }
  destruct (Permutation_Forall2 P F') as [sets [Q G]]. exists sets. split; [exact Q|].
  clear - F G Hre. revert sets G. induction F as [|k t cells ts [_ [Nt It]] F IH]; intros sets G; inversion G as [|k2 t' c2 ts' [_ [Nt' It']] G']; subst; constructor; [|apply IH, G'].
  eapply points_intro; eauto.
  - apply Forall_forall. intros i I. apply It in I as [x [Ex _]]. apply nth_error_Some. congruence.
  - apply Forall_forall. intros i I. apply It' in I as [x [Ex _]]. destruct (s_length s Y Y' Hre) as [_ <-]. apply nth_error_Some. congruence.
  - intros a i Ei. destruct (newpos_old s Y Y' Hre a i Ei) as [Ea _]. rewrite It, It'. split; intros [x [Ex K]]; exists x; (split; [|exact K]).
    + rewrite <- Ea. eapply row_moved; eauto.
    + eapply row_back; eauto.
Qed.
Print Assumptions C59_standard_cover.

(** Mapper with this cover: data [X] and lens values [Y] in another order. *)
Theorem C59_standard_mapper : forall (S : Type) s (X X' : list S) m eps Y Y' lo hi (c : cubical RA) ov (clust : clustering S),
  cubical_input m eps Y lo hi c ov -> (0 < ov < 1)%R -> reordered s Y Y' -> reordered s X X' -> order_free clust -> call_free clust ->
  (forall g, mapper_graph X (cubical_apply RA eps Standard c Y) clust = Ok g ->
     exists g', mapper_graph X' (cubical_apply RA eps Standard c Y') clust = Ok g' /\ same_graph_of s g g') /\
  (forall comps, mapper_connected_components X (cubical_apply RA eps Standard c Y) clust = Ok comps ->
     exists comps', mapper_connected_components X' (cubical_apply RA eps Standard c Y') clust = Ok comps' /\ same_partition_of s comps comps').
Proof.
  intros S s X X' m eps Y Y' lo hi c ov clust Hin Ho Hy Hx Hf Hc. apply C59_row_order; auto.
  - eapply C59_standard_cover; eauto.
  - destruct Hin. apply (cubical_nodup m eps Y c ov Standard); tauto.
Qed.
Print Assumptions C59_standard_mapper.

(** The clustering that is used by default meets the hypotheses. *)
Theorem C59_trivial_clustering : forall S : Type, order_free (fun _ => @trivial_clustering S) /\ call_free (fun _ => @trivial_clustering S).
Proof.
  intro S. split; [|intros k k' xs; reflexivity]. intros k s xs xs' lbls [P M] [= <-]. eexists. split; [reflexivity|].
  assert (U : forall (zs : list S) p q, together (map (fun _ => 0) zs) p q <-> exists y z, nth_error zs p = Some y /\ nth_error zs q = Some z).
  { intros zs p q. split.
    - intros [l [_ [A B]]]. rewrite nth_error_map in A, B. destruct (nth_error zs p) as [y|]; [|discriminate]. destruct (nth_error zs q) as [z|]; [|discriminate]. eauto.
    - intros [y [z [A B]]]. exists 0. rewrite !nth_error_map, A, B. auto with zarith. }
  intros a b p q Ha Hb. rewrite !U.
  destruct (map_nth_some _ _ _ _ _ M Ha) as [y [A1 A2]]. destruct (map_nth_some _ _ _ _ _ M Hb) as [z [B1 B2]].
  rewrite A1, A2, B1, B2. reflexivity.
Qed.
Print Assumptions C59_trivial_clustering.

Example C59_hypotheses_met : forall eps, (0 <= eps <= 1)%R ->
  cubical_input 1 eps demo_X (fun _ => 0%R) (fun _ => 3%R) demo_c (1 / 2)%R /\ reordered [2; 0; 1]%nat demo_X [[3]; [0]; [9 / 10]]%R.
Proof.
  intros eps He. split; [exact (C28_hypotheses_met eps He)|]. split; [|reflexivity].
  apply (Permutation_cons_append [0; 1]%nat 2%nat).
Qed.

(** A run on rationals: four points, reversed. *)
Example C59_runs :
  let Y := [[0; 7]; [5; 7]; [9; 7]; [2; 7]]%Q in
  let run Y := mapper_graph Y (cubical_apply QA (1 # 1000) Standard (demo_q (Some (9 # 20))) Y) (fun _ => trivial_clustering) in
  exists g g', run Y = Ok g /\ run (rev Y) = Ok g' /\
    g = mkgraph [(2, (2, [0; 3])%nat); (0, (2, [1; 2])%nat); (1, (2, [1; 3])%nat)] [(2, [1]); (0, [1]); (1, [0; 2])] /\
    g' = mkgraph [(0, (2, [0; 2])%nat); (2, (2, [0; 3])%nat); (1, (2, [1; 2])%nat)] [(0, [2; 1]); (2, [0]); (1, [0])].
Proof. do 2 eexists. split; [vm_compute; reflexivity|]. split; [vm_compute; reflexivity|]. split; reflexivity. Qed.

(** With the proximity algorithm the number of sets depends on the order. *)
Theorem C59_proximity_refuted : exists (c : cubical QA) (Y Y' : list (list Q)), Permutation Y Y' /\
  let opens := cubical_apply QA (1 # 1000) Proximity c Y in let opens' := cubical_apply QA (1 # 1000) Proximity c Y' in
  stops opens = None /\ stops opens' = None /\ length (yields opens) <> length (yields opens').
Proof.
  exists (demo_q (Some (9 # 20))), [[0]; [3]; [6]; [9]]%Q, [[3]; [0]; [6]; [9]]%Q. split; [apply perm_swap|].
  vm_compute. repeat (split; [reflexivity|]). discriminate.
Qed.
Print Assumptions C59_proximity_refuted.
