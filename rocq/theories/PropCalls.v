(** Theorems on the calls of the metric: how many there are, and what happens when one raises. *)
From Coq Require Import Reals Lra.
From Verif Require Import Base SpecArray BaseFacts ModelCore ModelVPTree SpecVPTree SpecMetric ModelCover SpecCover
  VPProp CoverFacts CoverProp ModelCalls CallsFacts CallsCost CallsCover.
Open Scope nat_scope.

(** A total metric extending what the calls return. *)
Definition extends {T D : Type} (metric : T -> T -> D) (ev : T -> T -> res D) : Prop :=
  forall x y d, ev x y = Ok d -> metric x y = d.

(** Any calls have such a metric. *)
Lemma extension {T D : Type} (ev : T -> T -> res D) (zero : D) :
  extends (fun x y => match ev x y with Ok d => d | Err _ => zero end) ev.
Proof. intros x y d H. rewrite H. reflexivity. Qed.

(** ** C61: calls made to build a tree over [n] points: at most [n] times the rounded-up binary
    logarithm of [n] without furthest-point pivoting, and at most [3 n (log n + 1)] in any case, each on
    two points of the dataset. *)
Theorem C61_build_calls : forall {T D : Type} (ev : T -> T -> res D) (leb ltb : D -> D -> bool) (zero : D)
    (kind : vkind) (par : vparams D) (X : list T) t w,
  1 <= leaf_capacity par -> vptree_c ev leb ltb zero kind par X [] = Ok (t, w) ->
  let n := length X in
  (pivot_kind par <> Furthest -> length w <= n * Nat.log2_up n) /\
  length w <= 3 * n * (Nat.log2_up n + 1) /\
  Forall (fun p => In (fst p) X /\ In (snd p) X) w.
Proof.
  intros T D ev leb ltb zero kind par X t w Hc E n.
  pose proof (cost_vptree ev leb ltb zero kind par X Hc [] t w E) as L. simpl in L. rewrite Nat.add_0_r in L.
  fold n in L. unfold build_cost in L.
  pose proof (tracks_run _ _ _ _ _ (tracks_vptree ev _ leb ltb zero (extension ev zero) kind par X)) as H.
  rewrite E in H. destruct H as [_ [_ F]].
  split; [destruct (pivot_kind par); intro; [exact L|exact L|congruence]|]. split; [|exact F].
  destruct (pivot_kind par); lia.
Qed.
Print Assumptions C61_build_calls.

(** ** C61: a query on a tree over [n] points makes at most [n] calls, each on the query and a
    point of the dataset. No property of the metric is needed. *)
Theorem C61_query_calls : forall {T D : Type} (ev : T -> T -> res D) (leb ltb : D -> D -> bool)
    (gap : D -> D -> D) (zero : D) (kind : vkind) (par : vparams D) (X : list T) t w,
  order_ok leb ltb gap -> 1 <= leaf_capacity par -> vptree_c ev leb ltb zero kind par X [] = Ok (t, w) ->
  let on_query q w := Forall (fun p => (fst p = q /\ In (snd p) X) \/ (In (fst p) X /\ snd p = q)) w in
  (forall q eps inclusive r w', ball_search_c ev leb ltb gap t q eps inclusive [] = Ok (r, w') ->
     length w' <= length X /\ on_query q w') /\
  (forall q k r w', knn_search_c ev leb ltb gap zero t q k [] = Ok (r, w') ->
     length w' <= length X /\ on_query q w').
Proof.
  intros T D ev leb ltb gap zero kind par X t w Ho Hc E on_query.
  pose proof (tracks_run _ _ _ _ _ (tracks_vptree ev _ leb ltb zero (extension ev zero) kind par X)) as H.
  rewrite E in H. destruct H as [Et [Ht _]].
  destruct (cost_searches ev leb ltb gap zero _ kind par X t Ho Hc Et) as [C1 C2].
  split; [intros q eps incl r w' Eq|intros q k r w' Eq].
  - split; [specialize (C1 q eps incl [] r w' Eq); simpl in C1; lia|].
    pose proof (tracks_run _ _ _ _ _ (tracks_ball_search ev _ leb ltb gap (extension ev zero) X t q eps incl Ht)) as H.
    rewrite Eq in H. exact (proj2 (proj2 H)).
  - split; [specialize (C2 q k [] r w' Eq); simpl in C2; lia|].
    pose proof (tracks_run _ _ _ _ _ (tracks_knn_search ev _ leb ltb gap zero (extension ev zero) X t q k Ht)) as H.
    rewrite Eq in H. exact (proj2 (proj2 H)).
Qed.
Print Assumptions C61_query_calls.

(** ** C61: building the ball cover of [n] points: the tree, and at most [n] calls for each open set. *)
Theorem C61_ball_cover_calls : forall {T : Type} (P : T -> Prop) (d : T -> T -> R) (ev : T -> T -> res R)
    (c : ball_cover R) (X : list T),
  pseudo_metric_on P d -> Forall P X -> extends d ev -> (0 < bc_radius c)%R ->
  1 <= bc_leaf_capacity c -> tp_kind (bc_tree c) <> OtherKind ->
  let r := ball_apply_c ev Rleb Rltb Rgap 0%R c X in
  let n := length X in
  length (snd r) <= 3 * n * (Nat.log2_up n + 1) + n * length (yields (fst r)).
Proof.
  intros T P d ev c X Hd HX Hag Hr Hc Hk r n. assert (HX' := HX). rewrite Forall_forall in HX'.
  apply (cost_ball_apply ev d Rleb Rltb Rgap 0%R Hag R_order_ok c X Hc).
  apply (ball_query_nonempty ev d Rleb Rltb Rgap 0%R Hag R_order_ok c X Hc Hk).
  - intros x I. apply (pseudo_on_searchable P); auto.
  - intros x I. apply Rltb_true. destruct Hd as [Hs _ _]. rewrite Hs; auto.
Qed.
Print Assumptions C61_ball_cover_calls.

Theorem C61_knn_cover_calls : forall {T : Type} (P : T -> Prop) (d : T -> T -> R) (ev : T -> T -> res R)
    (c : knn_cover R) (X : list T),
  pseudo_metric_on P d -> Forall P X -> extends d ev ->
  1 <= kc_neighbors c -> tp_kind (kc_tree c) <> OtherKind ->
  let r := knn_apply_c ev Rleb Rltb Rgap 0%R c X in
  let n := length X in
  length (snd r) <= 3 * n * (Nat.log2_up n + 1) + n * length (yields (fst r)).
Proof.
  intros T P d ev c X Hd HX Hag Hc Hk r n. assert (HX' := HX). rewrite Forall_forall in HX'.
  apply (cost_knn_apply ev d Rleb Rltb Rgap 0%R Hag R_order_ok c X Hc).
  apply (knn_query_nonempty ev d Rleb Rltb Rgap 0%R Hag R_order_ok c X Hc Hk).
  intros x I. apply (pseudo_on_searchable P); auto.
Qed.
Print Assumptions C61_knn_cover_calls.

(** Without any property of the metric, and whatever the answers: [n] calls for each point. *)
Theorem C61_cover_calls_any : forall {T D : Type} (ev : T -> T -> res D) (leb ltb : D -> D -> bool)
    (gap : D -> D -> D) (zero : D) (X : list T),
  order_ok leb ltb gap ->
  let n := length X in let b := 3 * n * (Nat.log2_up n + 1) + n * n in
  (forall c : ball_cover D, 1 <= bc_leaf_capacity c -> length (snd (ball_apply_c ev leb ltb gap zero c X)) <= b) /\
  (forall c : knn_cover D, 1 <= kc_neighbors c -> length (snd (knn_apply_c ev leb ltb gap zero c X)) <= b).
Proof.
  intros T D ev leb ltb gap zero X Ho n b. split; intros c Hc.
  - apply (cost_ball_apply ev _ leb ltb gap zero (extension ev zero) Ho c X Hc).
  - apply (cost_knn_apply ev _ leb ltb gap zero (extension ev zero) Ho c X Hc).
Qed.
Print Assumptions C61_cover_calls_any.

(** Non-vacuity: nine points on a line, and calls that raise for a pair of points 11 apart. *)
Definition line9 : list Z := [10; 3; 5; 5; 0; 6; 2; 14; 8]%Z.
Definition zdist (a b : Z) : res Z := Ok (Z.abs (a - b)).
Definition zfussy (a b : Z) : res Z := if Z.eqb (Z.abs (a - b)) 11 then Err (UserError 7) else zdist a b.
Definition zg (a b : Z) : Z := Z.abs (a - b).
Definition count {A B} (r : res (A * list B)) : option nat := match r with Ok (_, w) => Some (length w) | Err _ => None end.
Definition par9 (p : pivoting) : vparams Z := mkvp 1 0%Z p (fun c => 3 * c + 1).
Definition t9 kind p := vptree_c zdist Z.leb Z.ltb 0%Z kind (par9 p) line9 [].

Example C61_example :
  length line9 * Nat.log2_up (length line9) = 36 /\ 3 * length line9 * (Nat.log2_up (length line9) + 1) = 135 /\
  count (t9 Flat Disabled) = Some 18 /\ count (t9 Flat Random) = Some 17 /\ count (t9 Flat Furthest) = Some 68 /\
  count (t9 Hierarchical Disabled) = Some 18 /\ count (t9 Hierarchical Furthest) = Some 66.
Proof. repeat split; vm_compute; reflexivity. Qed.

(** Queries with a small radius save calls; a large radius needs all of them. *)
Example C61_query_example :
  (do t <- t9 Flat Disabled; ball_search_c zdist Z.leb Z.ltb zg (fst t) 0%Z 1%Z true []) =
    Ok ([0], [(0, 0); (0, 2); (0, 3); (0, 5); (0, 10)])%Z /\
  count (do t <- t9 Flat Disabled; ball_search_c zdist Z.leb Z.ltb zg (fst t) 6%Z 20%Z true []) = Some 9 /\
  (do t <- t9 Hierarchical Disabled; knn_search_c zdist Z.leb Z.ltb zg 0%Z (fst t) 14%Z 1 []) =
    Ok ([14], [(14, 14); (6, 14); (8, 14); (10, 14)])%Z.
Proof. repeat split; vm_compute; reflexivity. Qed.

Example C61_cover_example :
  let r := ball_apply_c zdist Z.leb Z.ltb zg 0%Z (mkball 3%Z (mktp Flat Disabled (fun c => c)) 1 None) line9 in
  yields (fst r) = [[0; 8]; [2; 3; 1; 6]; [6; 4]; [8; 5; 2; 3]; [7]] /\ length (snd r) = 51.
Proof. split; vm_compute; reflexivity. Qed.

(** ** C62: the metric raises. Building a tree succeeds, or raises what a call on two points of the
    dataset raised. A query on the tree gives the right answer, or raises what a call on the query
    and a point of the dataset raised. *)
Theorem C62_tree : forall {T : Type} (d : T -> T -> R) (ev : T -> T -> res R) (kind : vkind)
    (par : vparams R) (X : list T),
  pseudo_metric d -> extends d ev -> 1 <= leaf_capacity par -> X <> [] -> kind <> OtherKind ->
  let from_call q e := exists x, In x X /\ (ev q x = Err e \/ ev x q = Err e) in
  match vptree_c ev Rleb Rltb 0%R kind par X [] with
  | Err e => exists x y, In x X /\ In y X /\ ev x y = Err e
  | Ok (t, _) =>
      (forall q eps inclusive,
         match ball_search_c ev Rleb Rltb Rgap t q eps inclusive [] with
         | Ok (res, _) => ball_answer d Rleb Rltb X q eps inclusive res
         | Err e => from_call q e
         end) /\
      (forall q k,
         match knn_search_c ev Rleb Rltb Rgap 0%R t q k [] with
         | Ok (res, _) => knn_answer d Rleb X q k res
         | Err e => from_call q e
         end)
  end.
Proof.
  intros T d ev kind par X Hd Hag Hc Hn Hk from_call.
  destruct (any_tree_real d kind par X Hd Hc Hn Hk) as [t0 [E0 [HB HK]]].
  pose proof (tracks_run _ _ _ _ _ (tracks_vptree ev d Rleb Rltb 0%R Hag kind par X)) as H.
  assert (Q : forall q e, raised ev (with_q X q) e -> from_call q e).
  { intros q e [x [y [[[-> I]|[I ->]] Er]]]; [exists y|exists x]; auto. }
  destruct (vptree_c ev Rleb Rltb 0%R kind par X []) as [[t w]|e].
  - destruct H as [Et [Ht _]]. rewrite E0 in Et. injection Et as ->. split.
    + intros q eps incl.
      pose proof (tracks_run _ _ _ _ _ (tracks_ball_search ev d Rleb Rltb Rgap Hag X t q eps incl Ht)) as H.
      destruct (HB q eps incl) as [res [Er A]].
      destruct (ball_search_c ev Rleb Rltb Rgap t q eps incl []) as [[r w']|e].
      * destruct H as [H _]. rewrite Er in H. injection H as <-. exact A.
      * destruct H as [H|H]; [congruence|]. apply Q, H.
    + intros q k.
      pose proof (tracks_run _ _ _ _ _ (tracks_knn_search ev d Rleb Rltb Rgap 0%R Hag X t q k Ht)) as H.
      destruct (HK q k) as [res [Er A]].
      destruct (knn_search_c ev Rleb Rltb Rgap 0%R t q k []) as [[r w']|e].
      * destruct H as [H _]. rewrite Er in H. injection H as <-. exact A.
      * destruct H as [H|H]; [congruence|]. apply Q, H.
  - destruct H as [H|[x [y [[Ix Iy] H]]]]; [congruence|]. eauto.
Qed.
Print Assumptions C62_tree.

(** ** C62: for any distances and any metric, without hypotheses: calls that do not raise leave
    the behaviour unchanged, exceptions of the code included. *)
Theorem C62_same : forall {T D : Type} (metric : T -> T -> D) (ev : T -> T -> res D) (leb ltb : D -> D -> bool)
    (gap : D -> D -> D) (zero : D) (kind : vkind) (par : vparams D) (X : list T),
  extends metric ev ->
  match vptree_c ev leb ltb zero kind par X [] with
  | Err e => vptree metric leb ltb zero kind par X = Err e \/ exists x y, In x X /\ In y X /\ ev x y = Err e
  | Ok (t, _) => vptree metric leb ltb zero kind par X = Ok t /\
      (forall q eps inclusive,
         match ball_search_c ev leb ltb gap t q eps inclusive [] with
         | Ok (res, _) => ball_search metric leb ltb gap t q eps inclusive = Ok res
         | Err e => ball_search metric leb ltb gap t q eps inclusive = Err e \/
                    exists x, In x X /\ (ev q x = Err e \/ ev x q = Err e)
         end) /\
      (forall q k,
         match knn_search_c ev leb ltb gap zero t q k [] with
         | Ok (res, _) => knn_search metric leb ltb gap zero t q k = Ok res
         | Err e => knn_search metric leb ltb gap zero t q k = Err e \/
                    exists x, In x X /\ (ev q x = Err e \/ ev x q = Err e)
         end)
  end.
Proof.
  intros T D metric ev leb ltb gap zero kind par X Hag.
  pose proof (tracks_run _ _ _ _ _ (tracks_vptree ev metric leb ltb zero Hag kind par X)) as H.
  assert (Q : forall q e, raised ev (with_q X q) e -> exists x, In x X /\ (ev q x = Err e \/ ev x q = Err e)).
  { intros q e [x [y [[[-> I]|[I ->]] Er]]]; [exists y|exists x]; auto. }
  destruct (vptree_c ev leb ltb zero kind par X []) as [[t w]|e].
  - destruct H as [Et [Ht _]]. split; [exact Et|]. split.
    + intros q eps incl.
      pose proof (tracks_run _ _ _ _ _ (tracks_ball_search ev metric leb ltb gap Hag X t q eps incl Ht)) as H.
      destruct (ball_search_c ev leb ltb gap t q eps incl []) as [[r w']|e]; [apply H|].
      destruct H as [H|H]; [left; exact H|right; apply Q, H].
    + intros q k.
      pose proof (tracks_run _ _ _ _ _ (tracks_knn_search ev metric leb ltb gap zero Hag X t q k Ht)) as H.
      destruct (knn_search_c ev leb ltb gap zero t q k []) as [[r w']|e]; [apply H|].
      destruct H as [H|H]; [left; exact H|right; apply Q, H].
  - destruct H as [H|[x [y [[Ix Iy] H]]]]; [left; exact H|right; eauto].
Qed.
Print Assumptions C62_same.

(** ** C62: covers. The open sets yielded are those of the ball cover, or its first ones followed by the
    exception of a call on two points of the dataset. *)
Theorem C62_ball_cover : forall {T : Type} (P : T -> Prop) (d : T -> T -> R) (ev : T -> T -> res R)
    (c : ball_cover R) (X : list T),
  pseudo_metric_on P d -> Forall P X -> extends d ev -> (0 < bc_radius c)%R ->
  1 <= bc_leaf_capacity c -> tp_kind (bc_tree c) <> OtherKind ->
  let g := fst (ball_apply_c ev Rleb Rltb Rgap 0%R c X) in
  let full := ball_apply Rleb Rltb Rgap 0%R d c X in
  match stops g with
  | None => g = full
  | Some e => (exists x y, In x X /\ In y X /\ ev x y = Err e) /\ exists rest, yields full = yields g ++ rest
  end.
Proof.
  intros T P d ev c X Hd HX Hag Hr Hc Hk g full.
  destruct (ball_apply_real P d c X Hd HX Hr Hc Hk) as [cs [S _]].
  destruct (ball_apply_prefix ev d Rleb Rltb Rgap 0%R Hag c X) as [E|[e [rest [E1 [[x [y [[Ix Iy] Er]]] E3]]]]].
  - fold g full in E. rewrite E. fold full in S. rewrite S. reflexivity.
  - fold g in E1. rewrite E1. split; [eauto|]. exists rest. exact E3.
Qed.
Print Assumptions C62_ball_cover.

Theorem C62_knn_cover : forall {T : Type} (P : T -> Prop) (d : T -> T -> R) (ev : T -> T -> res R)
    (c : knn_cover R) (X : list T),
  pseudo_metric_on P d -> Forall P X -> extends d ev ->
  1 <= kc_neighbors c -> tp_kind (kc_tree c) <> OtherKind ->
  let g := fst (knn_apply_c ev Rleb Rltb Rgap 0%R c X) in
  let full := knn_apply Rleb Rltb Rgap 0%R d c X in
  match stops g with
  | None => g = full
  | Some e => (exists x y, In x X /\ In y X /\ ev x y = Err e) /\ exists rest, yields full = yields g ++ rest
  end.
Proof.
  intros T P d ev c X Hd HX Hag Hc Hk g full. assert (HX' := HX). rewrite Forall_forall in HX'.
  destruct (knn_apply_net d Rleb Rltb Rgap 0%R c X R_order_ok Hc Hk) as [cs [S _]].
  { intros x I. apply (pseudo_on_searchable P); auto. }
  destruct (knn_apply_prefix ev d Rleb Rltb Rgap 0%R Hag c X) as [E|[e [rest [E1 [[x [y [[Ix Iy] Er]]] E3]]]]].
  - fold g full in E. rewrite E. fold full in S. rewrite S. reflexivity.
  - fold g in E1. rewrite E1. split; [eauto|]. exists rest. exact E3.
Qed.
Print Assumptions C62_knn_cover.

(** Non-vacuity: the calls raise on the points 3 and 14. One tree never asks for that pair while
    it is built, the other does; on the first, queries whose ball stays away from it are answered. A
    cover stops after its first open set, or is complete if the pair is not asked for. *)
Example C62_extends_example :
  extends (fun x y => Z.abs (x - y)) zfussy /\ zfussy 3 14 = Err (UserError 7).
Proof.
  split; [|reflexivity]. intros x y d H. unfold zfussy, zdist in H.
  destruct (Z.eqb (Z.abs (x - y)) 11); [discriminate|]. injection H as <-. reflexivity.
Qed.
Definition f9 p := vptree_c zfussy Z.leb Z.ltb 0%Z Flat (par9 p) line9 [].
Definition ball9 (r : Z) : ball_cover Z := mkball r (mktp Flat Disabled (fun c => c)) 1 None.
Example C62_example :
  count (f9 Disabled) = Some 18 /\ f9 Furthest = Err (UserError 7) /\
  (do t <- f9 Disabled; ball_search_c zfussy Z.leb Z.ltb zg (fst t) 0%Z 1%Z true []) =
    Ok ([0], [(0, 0); (0, 2); (0, 3); (0, 5); (0, 10)])%Z /\
  (do t <- f9 Disabled; ball_search_c zfussy Z.leb Z.ltb zg (fst t) 3%Z 2%Z true []) = Err (UserError 7) /\
  fst (ball_apply_c zfussy Z.leb Z.ltb zg 0%Z (ball9 3) line9) = mkgen [[0; 8]] (Some (UserError 7)) /\
  ball_apply Z.leb Z.ltb zg 0%Z (fun x y => Z.abs (x - y)) (ball9 3) line9 =
    mkgen [[0; 8]; [2; 3; 1; 6]; [6; 4]; [8; 5; 2; 3]; [7]] None /\
  fst (ball_apply_c zfussy Z.leb Z.ltb zg 0%Z (ball9 9) line9) =
    mkgen [[0; 8; 7; 5; 2; 3; 1; 6]; [8; 5; 2; 3; 1; 6; 4]] None.
Proof. repeat split; vm_compute; reflexivity. Qed.

(** ** C62: Mapper on covers whose metric raises: each function returns what it would with calls that
    do not raise, or raises the exception of a call on two points of the dataset. Any clustering, and
    no hypothesis on the metric. *)
Definition same_or_raised {T D R : Type} (ev : T -> T -> res D) (X : list T) (r full : res R) : Prop :=
  r = full \/ exists x y e, In x X /\ In y X /\ ev x y = Err e /\ r = Err e.
Theorem C62_mapper : forall {T D : Type} (metric : T -> T -> D) (ev : T -> T -> res D) (leb ltb : D -> D -> bool)
    (gap : D -> D -> D) (zero : D) (Y : list T),
  extends metric ev ->
  let both (g full : gen (list nat)) := forall (S : Type) (X : list S) clust,
    same_or_raised ev Y (mapper_labels X g clust) (mapper_labels X full clust) /\
    same_or_raised ev Y (mapper_connected_components X g clust) (mapper_connected_components X full clust) /\
    same_or_raised ev Y (mapper_graph X g clust) (mapper_graph X full clust) in
  (forall c, both (fst (ball_apply_c ev leb ltb gap zero c Y)) (ball_apply leb ltb gap zero metric c Y)) /\
  (forall c, both (fst (knn_apply_c ev leb ltb gap zero c Y)) (knn_apply leb ltb gap zero metric c Y)).
Proof.
  intros T D metric ev leb ltb gap zero Y Hag both.
  assert (G : forall g full, prefix_of (raised ev (pair_in Y)) g full -> both g full).
  { intros g full H S X clust. unfold mapper_connected_components, mapper_graph.
    destruct (labels_prefix X clust _ g full H) as [E|[e [[x [y [[Ix Iy] Er]]] E]]]; rewrite E.
    - repeat split; left; reflexivity.
    - repeat split; right; exists x, y, e; auto. }
  split; intro c; apply G; [apply ball_apply_prefix|apply knn_apply_prefix]; exact Hag.
Qed.
Print Assumptions C62_mapper.
Example C62_mapper_example :
  let g r := mapper_graph line9 (fst (ball_apply_c zfussy Z.leb Z.ltb zg 0%Z (ball9 r) line9)) (fun _ => trivial_clustering) in
  g 3%Z = Err (UserError 7) /\
  g 9%Z = mapper_graph line9 (ball_apply Z.leb Z.ltb zg 0%Z (fun x y => Z.abs (x - y)) (ball9 9) line9) (fun _ => trivial_clustering) /\
  match g 9%Z with Ok G => map fst (g_nodes G) = [0; 1]%Z | Err _ => False end.
Proof. cbv zeta. split; [vm_compute; reflexivity|]. split; vm_compute; reflexivity. Qed.
