(** C56, C28, C29: a recursion limit that is reached, and an unknown algorithm of a cubical cover. *)
From Coq Require Import Reals QArith.
From Verif Require Import Base ModelCore ModelQuickselect ModelHeap ModelVPTree ModelDepth SpecVPTree SpecMetric LimitProp PropDepth.
From Verif Require Import ModelArith ModelCover SpecCover SpecCubical CubicalProp PropCover.
Open Scope nat_scope.

(** ** C56: a limit that is too low raises, it never changes an answer *)
Theorem C56_limit_reached : forall (T D : Type) (metric : T -> T -> D) (leb ltb : D -> D -> bool)
    (gap : D -> D -> D) (zero : D) (par : vparams D) (X : list T) (limit : nat),
  order_ok leb ltb gap -> 1 <= leaf_capacity par ->
  (build_hier_limit metric leb ltb zero X par limit = Err OutOfFuel \/
   build_hier_limit metric leb ltb zero X par limit = build_hier metric leb ltb zero par X) /\
  forall t st,
    (forall q eps inclusive,
       ball_rec_limit metric leb ltb gap X limit st q eps inclusive t [] = Err OutOfFuel \/
       ball_rec_limit metric leb ltb gap X limit st q eps inclusive t [] =
         ball_search metric leb ltb gap (HierT X t st) q eps inclusive) /\
    (forall q k,
       knn_hier_limit metric leb ltb gap X limit t st q k = Err OutOfFuel \/
       knn_hier_limit metric leb ltb gap X limit t st q k =
         knn_search metric leb ltb gap zero (HierT X t st) q k).
Proof.
  intros T D metric leb ltb gap zero par X limit Ho Hc. split; [apply (build_limit_any metric leb ltb gap); auto|].
  intros t st. split.
  - intros. apply ball_limit_any.
  - intros q k. unfold knn_hier_limit.
    destruct (knn_limit_any metric leb ltb gap X st k q t limit []) as [F|F]; rewrite F; [left|right]; reflexivity.
Qed.
Print Assumptions C56_limit_reached.

(** A limit up to the depth of the nearest leaf makes every search raise. *)
Theorem C56_limit_too_low : forall (T D : Type) (metric : T -> T -> D) (leb ltb : D -> D -> bool)
    (gap : D -> D -> D) (X : list T) t st (limit : nat), limit <= leaf_depth t ->
  (forall q eps inclusive result,
     ball_rec_limit metric leb ltb gap X limit st q eps inclusive t result = Err OutOfFuel) /\
  (forall q k, exists e, knn_hier_limit metric leb ltb gap X limit t st q k = Err e).
Proof.
  intros T D metric leb ltb gap X t st limit H. split.
  - intros. apply ball_limit_low, H.
  - intros q k. unfold knn_hier_limit.
    destruct (knn_limit_low metric leb ltb gap X st k q t limit [] H) as [e F]. rewrite F. eexists; reflexivity.
Qed.
Print Assumptions C56_limit_too_low.

(** Eight points: four nested calls answer, two raise. *)
Example C56_limit_example :
  let par := mkvp 1 0%Z Disabled (fun _ => 0) in
  exists t st, build_hier_limit zdist Z.leb Z.ltb 0%Z eight par 4 = Ok (t, st) /\ leaf_depth t = 2 /\
    knn_hier_limit zdist Z.leb Z.ltb zdist eight 2 t st 5%Z 2 = Err OutOfFuel /\
    (exists ids, knn_hier_limit zdist Z.leb Z.ltb zdist eight 4 t st 5%Z 2 = Ok ids /\ length ids = 2).
Proof.
  cbv zeta. do 2 eexists. split; [vm_compute; reflexivity|]. split; [vm_compute; reflexivity|].
  split; [vm_compute; reflexivity|]. eexists. split; [vm_compute; reflexivity|reflexivity].
Qed.

(** ** C28, C29: the algorithm of a CubicalCover *)
(** An unknown one raises a ValueError in [fit] and before the first open set of
    [apply], whatever the data, the parameters and the arithmetic are. *)
Theorem C29_unknown_algorithm : forall (A : arith) eps (c : cubical A) X,
  cubical_cover_fit A eps OtherAlgorithm c X = Err ValueError /\
  cubical_apply A eps OtherAlgorithm c X = mkgen [] (Some ValueError).
Proof. intros. split; reflexivity. Qed.
Print Assumptions C29_unknown_algorithm.

(** With a known one, whichever it is, a fitted CubicalCover answers a query with
    the points in the hypercube of the query's cell. *)
Theorem C28_cubical_cover_search : forall m eps X lo hi (c : cubical RA) ov alg,
  cubical_input m eps X lo hi c ov -> (0 < ov < 1)%R -> alg <> OtherAlgorithm ->
  let n := cu_n_intervals RA c in let p := grid_pos n eps lo hi in
  exists search, cubical_cover_fit RA eps alg c X = Ok search /\
    forall q k, length q = m -> in_cell m n p q k ->
    exists ids, search q = Ok ids /\ cube_ids m (1 / (2 - 2 * ov))%R p X k ids.
Proof.
  intros m eps X lo hi c ov alg HI Ho Ha. cbn zeta.
  destruct (C28_search_is_hypercube m eps X lo hi c ov HI Ho) as [search [E H]].
  exists search. split; [|exact H]. destruct alg; [exact E|exact E|congruence].
Qed.
Print Assumptions C28_cubical_cover_search.

Definition answer {T} (r : res (T -> res (list nat))) (q : T) : res (list nat) := do s <- r; s q.
Example C28_cubical_cover_example :
  let X := [[0%Q]; [9 # 10]; [3%Q]] in
  answer (cubical_cover_fit QA (1 # 1000) Standard (demo_q (Some (1 # 2))) X) [1 # 2] = Ok [0; 1] /\
  answer (cubical_cover_fit QA (1 # 1000) Proximity (demo_q (Some (1 # 2))) X) [5 # 2] = Ok [2] /\
  answer (cubical_cover_fit QA (1 # 1000) OtherAlgorithm (demo_q (Some (1 # 2))) X) [1 # 2] = Err ValueError.
Proof. repeat split; vm_compute; reflexivity. Qed.
