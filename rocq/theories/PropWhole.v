(** C54: whole Mapper runs lose no point. *)
From Coq Require Import String Reals Lra.
From Flocq Require Import Core BinarySingleNaN.
From Verif Require Import Base ModelCore SpecCore SpecNet SpecWhole WholeProp CoreProp
  ModelVPTree ModelArith ModelCover SpecCover ModelMetrics SpecMetrics SpecCubical ModelFloat FloatFacts SpecDouble FloatCubicalFit PropFloat.
Open Scope Z_scope.

(** ** C54: no point is lost *)

(** A point has no label exactly when every open set that contains it leaves it out as noise. *)
Theorem C54_lost_iff_noise :
  forall (S : Type) (X : list S) (opens : gen (list nat)) (clust : clustering S) out i lbls,
  mapper_labels X opens clust = Ok out -> nth_error out i = Some lbls ->
  (lbls = [] <-> forall k ids ls j l, local_labels X (yields opens) clust k ids ls ->
     nth_error ids j = Some i -> nth_error ls j = Some l -> l < 0).
Proof. exact @lost_iff_noise. Qed.
Print Assumptions C54_lost_iff_noise.

(** Any proper cover with any clustering that labels every point. *)
Theorem C54_no_point_lost :
  forall (S : Type) (X : list S) (opens : gen (list nat)) (clust : clustering S),
  proper_cover (length X) opens -> labels_every_point X clust -> no_point_lost X opens clust.
Proof. exact @proper_no_point_lost. Qed.
Print Assumptions C54_no_point_lost.

(** [BallCover] with a named distance, on a lens of doubles. *)
Theorem C54_ball_cover :
  forall (S : Type) (X : list S) (Y : list (list b64)) (clust : clustering S) name m (c : ball_cover b64),
  length Y = length X -> labels_every_point X clust ->
  In name ["euclidean"; "manhattan"; "chebyshev"]%string -> (Z.of_nat m <= 2 ^ 20) ->
  Forall (moderate m) Y -> finite (bc_radius c) -> (0 < value (bc_radius c))%R -> opt_magnitude (bc_leaf_radius c) ->
  (1 <= bc_leaf_capacity c)%nat -> tp_kind (bc_tree c) <> OtherKind ->
  exists d, get_metric BA b_sqrt (Name name) [] = Ok (total_fn BA d) /\
    no_point_lost X (ball_apply b_le b_lt b_gap b_zero d c Y) clust.
Proof.
  intros S X Y clust name m c L Hc H1 H2 H3 H4 H5 H6 H7 H8.
  destruct (ball_proper name m c Y H1 H2 H3 H4 H5 H6 H7 H8) as [d [G P]]. exists d. split; [exact G|].
  apply proper_no_point_lost; [|exact Hc]. rewrite <- L. exact P.
Qed.
Print Assumptions C54_ball_cover.

(** [CubicalCover], both algorithms, on a lens of doubles. *)
Theorem C54_cubical_cover :
  forall (S : Type) (X : list S) (Y : list (list b64)) (clust : clustering S) (c : cubical BA) m lo hi ov E alg,
  let n := cu_n_intervals BA c in
  length Y = length X -> labels_every_point X clust ->
  (1 <= m)%nat -> (1 <= n <= 2 ^ 50) -> Y <> [] -> Forall (moderate m) Y ->
  column_bounds m (map reals Y) lo hi ->
  cu_overlap_frac BA c = Some ov -> finite ov ->
  (forall j, (j < m)%nat -> (grid_error n (lo j) (hi j) <= E)%R) -> (E < value ov < 1)%R ->
  opt_magnitude (cu_leaf_radius BA c) -> (1 <= cu_leaf_capacity BA c)%nat -> tp_kind (cu_tree BA c) <> OtherKind ->
  alg <> OtherAlgorithm ->
  no_point_lost X (cubical_apply BA (b_make 1 (-52)) alg c Y) clust.
Proof.
  intros S X Y clust c m lo hi ov E alg n L Hc H1 H2 H3 H4 H5 H6 H7 H8 H9 H10 H11 H12 H13.
  apply proper_no_point_lost; [|exact Hc]. rewrite <- L.
  destruct (cubical_double c m Y lo hi ov E H1 H2 H3 H4 H5 H6 H7 H8 H9 H10 H11 H12 alg H13) as [A [B [C _]]].
  split; [exact A|]. split; [exact B|exact C].
Qed.
Print Assumptions C54_cubical_cover.

(** The parabola of C52 with a clustering into even and odd. *)
Definition by_parity : clustering nat := fun _ xs => Ok (map (fun x => if Nat.even x then 0 else 1) xs).
Example C54_hypotheses_met :
  labels_every_point [0; 1; 2; 3; 4]%nat by_parity /\
  mapper_labels [0; 1; 2; 3; 4]%nat
    (ball_apply b_le b_lt b_gap b_zero (euclidean BA b_sqrt) (mkball (b_ofz 5) hier 1 None) parabola) by_parity =
    Ok [[0]; [1]; [0]; [3]; [4]] /\
  mapper_labels [0; 1; 2; 3; 4; 5]%nat
    (cubical_apply BA (b_make 1 (-52)) Standard (cells 3 (b_make 1 (-2))) column) by_parity =
    Ok [[4]; [5]; [2; 4]; [3]; [0; 2]; [1]].
Proof.
  split; [|split; vm_compute; reflexivity].
  intros k xs _ _. exists (map (fun x => if Nat.even x then 0 else 1) xs). split; [reflexivity|]. split; [apply map_length|].
  rewrite Forall_map. apply Forall_forall. intros x _. destruct (Nat.even x); lia.
Qed.

(** With a clustering that leaves points out, they can be lost although the cover has them. *)
Theorem C54_noise_refuted : exists (X : list nat) (opens : gen (list nat)) (clust : clustering nat) out,
  proper_cover (length X) opens /\ mapper_labels X opens clust = Ok out /\ In [] out.
Proof.
  exists [0; 1]%nat, (mkgen [[0; 1]]%nat None), (fun _ xs => Ok (map (fun x => if Nat.even x then 0 else -1) xs)), [[0]; []].
  split; [|split; [vm_compute; reflexivity|simpl; auto]]. split; [reflexivity|]. split.
  - intros i Hi. exists [0; 1]%nat. split; [left; reflexivity|]. simpl in *. lia.
  - intros s [<-|[]]. split; [discriminate|]. split; [repeat constructor; simpl; intuition lia|]. simpl. intros i Hi. lia.
Qed.
Print Assumptions C54_noise_refuted.
