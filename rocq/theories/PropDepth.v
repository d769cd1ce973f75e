(** C56: recursion depth of the hierarchical vp-tree. *)
From Coq Require Import Reals.
From Verif Require Import Base ModelQuickselect ModelHeap ModelVPTree ModelDepth SpecVPTree SpecMetric VPProp VPBuildFacts DepthProp.
Open Scope nat_scope.

(** ** C56: recursion depth *)

(** On [n] points, [h + 1] nested calls suffice to build the tree and for every
    search, if [n <= leaf_capacity * 2 ^ h], whatever the metric is. *)
Theorem C56_recursion_depth : forall (T D : Type) (metric : T -> T -> D) (leb ltb : D -> D -> bool)
    (gap : D -> D -> D) (zero : D) (par : vparams D) (X : list T) (h limit : nat),
  order_ok leb ltb gap -> 1 <= leaf_capacity par -> length X <= leaf_capacity par * 2 ^ h -> h < limit ->
  exists t st, build_hier metric leb ltb zero par X = Ok (t, st) /\
    build_hier_limit metric leb ltb zero X par limit = Ok (t, st) /\
    (forall q eps inclusive, ball_rec_limit metric leb ltb gap X limit st q eps inclusive t [] =
       ball_search metric leb ltb gap (HierT X t st) q eps inclusive) /\
    (forall q k, knn_hier_limit metric leb ltb gap X limit t st q k =
       knn_search metric leb ltb gap zero (HierT X t st) q k).
Proof.
  intros T D metric leb ltb gap zero par X h limit Ho Hc Hn Hl.
  destruct (build_hier_correct metric leb ltb gap zero par X Ho Hc) as [t [st [ds [ps [E _]]]]].
  exists t, st. split; [exact E|].
  destruct (build_limit metric leb ltb zero X par t st limit E) as [B H]; [|lia|].
  { eapply Nat.le_trans; [exact Hn|]. apply Nat.mul_le_mono_l, Nat.pow_le_mono_r; lia. }
  split; [exact B|]. split.
  - intros. apply ball_limit, H.
  - intros. unfold knn_hier_limit. rewrite knn_limit by exact H. reflexivity.
Qed.
Print Assumptions C56_recursion_depth.

(** With Python's default limit of 1000 and 100 calls of other code, fewer than
    [2 ^ 899] points never exceed it. *)
Theorem C56_default_limit : forall (T : Type) (d : T -> T -> R) (par : vparams R) (X : list T),
  1 <= leaf_capacity par -> length X <= 2 ^ 899 ->
  exists t st, build_hier_limit d Rleb Rltb 0%R X par 900 = Ok (t, st) /\
    forall q eps inclusive, ball_rec_limit d Rleb Rltb Rgap X 900 st q eps inclusive t [] =
      ball_search d Rleb Rltb Rgap (HierT X t st) q eps inclusive.
Proof.
  intros T d par X Hc Hn.
  destruct (C56_recursion_depth T R d Rleb Rltb Rgap 0%R par X 899 900 R_order_ok Hc) as [t [st [_ [B [S _]]]]].
  - eapply Nat.le_trans; [exact Hn|]. rewrite <- (Nat.mul_1_l (2 ^ 899)) at 1. apply Nat.mul_le_mono_r, Hc.
  - apply Nat.lt_succ_diag_r.
  - exists t, st. auto.
Qed.
Print Assumptions C56_default_limit.

(** The bound is sharp: eight points need four nested calls. *)
Definition zdist (a b : Z) : Z := Z.abs (a - b).
Definition eight : list Z := [0; 1; 3; 7; 12; 20; 30; 44]%Z.
Example C56_hypotheses_met :
  let par := mkvp 1 0%Z Disabled (fun _ => 0) in
  length eight <= leaf_capacity par * 2 ^ 3 /\
  build_hier_limit zdist Z.leb Z.ltb 0%Z eight par 3 = Err OutOfFuel /\
  (exists t st, build_hier_limit zdist Z.leb Z.ltb 0%Z eight par 4 = Ok (t, st) /\
     ball_rec_limit zdist Z.leb Z.ltb zdist eight 3 st 5%Z 20%Z true t [] = Err OutOfFuel /\
     ball_rec_limit zdist Z.leb Z.ltb zdist eight 4 st 5%Z 3%Z true t [] = Ok [3; 7]%Z).
Proof.
  cbv zeta. split; [simpl; lia|]. split; [vm_compute; reflexivity|]. do 2 eexists. split; [vm_compute; reflexivity|].
  split; vm_compute; reflexivity.
Qed.
