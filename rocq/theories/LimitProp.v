(** What happens when the recursion limit is reached. *)
From Verif Require Import Base BaseFacts ModelQuickselect ModelHeap ModelVPTree ModelDepth SpecVPTree VPProp VPBuildFacts DepthProp.

Section LimitProp.
Context {T D : Type}.
Variable metric : T -> T -> D.
Variables leb ltb : D -> D -> bool.
Variable gap : D -> D -> D.
Variable zero : D.
Variable dataset : list T.
Variable par : vparams D.
Notation build := (build_rec metric leb ltb zero par dataset).

(** Depth of the leaf nearest to the root. *)
Fixpoint leaf_depth (t : @htree T D) : nat :=
  match t with HLeaf _ _ => 0 | HNode _ _ l r => S (Nat.min (leaf_depth l) (leaf_depth r)) end.

Lemma build_more fuel : forall s e c st more, fuel <= more ->
  build fuel s e c st = Err OutOfFuel \/ build fuel s e c st = build more s e c st.
Proof.
  induction fuel as [|fuel IH]; intros s e c st [|more] L; try lia; try (left; reflexivity).
  cbn [build_rec].
  destruct (e - s <=? leaf_capacity par); [right; reflexivity|].
  destruct (update_hier metric ltb zero par dataset c st s e) as [[c1 st1]|x]; cbn [bind]; [|right; reflexivity].
  destruct (get_point dataset st1 s) as [v|x]; cbn [bind]; [|right; reflexivity].
  destruct (quickselect ltb st1 (S s) e (mid_ s e)) as [st2|x]; cbn [bind]; [|right; reflexivity].
  destruct (get_distance st2 (mid_ s e)) as [rad|x]; cbn [bind]; [|right; reflexivity].
  destruct (set_distance st2 s rad) as [st3|x]; cbn [bind]; [|right; reflexivity].
  destruct (leb rad (leaf_radius par)); [right; reflexivity|].
  destruct (IH (S s) (mid_ s e) c1 st3 more ltac:(lia)) as [F|F]; rewrite F; [left; reflexivity|].
  destruct (build more (S s) (mid_ s e) c1 st3) as [[tl [c2 st4]]|x]; cbn [bind]; [|right; reflexivity].
  destruct (IH (mid_ s e) e c2 st4 more ltac:(lia)) as [G|G]; rewrite G; [left; reflexivity|right; reflexivity].
Qed.

Lemma build_limit_any limit : order_ok leb ltb gap -> 1 <= leaf_capacity par ->
  build_hier_limit metric leb ltb zero dataset par limit = Err OutOfFuel \/
  build_hier_limit metric leb ltb zero dataset par limit = build_hier metric leb ltb zero par dataset.
Proof.
  intros Ho Hc.
  destruct (build_hier_correct metric leb ltb gap zero par dataset Ho Hc) as [t [st [ds [ps [E _]]]]].
  unfold build_hier_limit. unfold build_hier in E |- *.
  destruct (0 <? length dataset); [|right; reflexivity].
  destruct (Nat.le_ge_cases limit (S (length dataset))) as [L|L].
  - destruct (build_more limit 0 (length dataset) 0 (mkq (repeat zero (length dataset)) (Some (seq 0 (length dataset))) None) _ L)
      as [F|F]; rewrite F; [left|right]; reflexivity.
  - destruct (build_more (S (length dataset)) 0 (length dataset) 0
      (mkq (repeat zero (length dataset)) (Some (seq 0 (length dataset))) None) _ L) as [F|F].
    + rewrite F in E. discriminate E.
    + rewrite <- F. right; reflexivity.
Qed.

Lemma ball_limit_any st q eps inc t : forall limit result,
  ball_rec_limit metric leb ltb gap dataset limit st q eps inc t result = Err OutOfFuel \/
  ball_rec_limit metric leb ltb gap dataset limit st q eps inc t result = ball_rec metric leb ltb gap dataset st q eps inc t result.
Proof.
  induction t as [s e|rad v l IHl r IHr]; intros [|limit] result; try (left; reflexivity).
  - right; reflexivity.
  - cbn [ball_rec ball_rec_limit]. cbv zeta. set (res1 := if inside _ _ _ _ _ then _ else _).
    destruct (leb (metric v q) rad).
    + destruct (IHl limit res1) as [F|F]; rewrite F; [left; reflexivity|].
      destruct (ball_rec _ _ _ _ _ _ _ _ _ l _) as [x|x]; cbn [bind]; [|right; reflexivity].
      destruct (leb (gap (metric v q) rad) eps); [apply IHr|right; reflexivity].
    + destruct (IHr limit res1) as [F|F]; rewrite F; [left; reflexivity|].
      destruct (ball_rec _ _ _ _ _ _ _ _ _ r _) as [x|x]; cbn [bind]; [|right; reflexivity].
      destruct (leb (gap (metric v q) rad) eps); [apply IHl|right; reflexivity].
Qed.

Lemma knn_limit_any st k q t : forall limit h,
  knn_rec_limit metric leb ltb gap dataset limit st k q t h = Err OutOfFuel \/
  knn_rec_limit metric leb ltb gap dataset limit st k q t h = knn_rec metric leb ltb gap dataset st k q t h.
Proof.
  induction t as [s e|rad v l IHl r IHr]; intros [|limit] h; try (left; reflexivity).
  - right; reflexivity.
  - cbn [knn_rec knn_rec_limit]. cbv zeta.
    destruct (knn_offer ltb k (metric v q) v h) as [h1|x]; cbn [bind]; [|right; reflexivity].
    destruct (leb (metric v q) rad).
    + destruct (IHl limit h1) as [F|F]; rewrite F; [left; reflexivity|].
      destruct (knn_rec _ _ _ _ _ _ _ _ l _) as [x|x]; cbn [bind]; [|right; reflexivity].
      match goal with |- (if ?b then _ else _) = _ \/ _ => destruct b end; [apply IHr|right; reflexivity].
    + destruct (IHr limit h1) as [F|F]; rewrite F; [left; reflexivity|].
      destruct (knn_rec _ _ _ _ _ _ _ _ r _) as [x|x]; cbn [bind]; [|right; reflexivity].
      match goal with |- (if ?b then _ else _) = _ \/ _ => destruct b end; [apply IHl|right; reflexivity].
Qed.

Lemma ball_limit_low st q eps inc t : forall limit result, limit <= leaf_depth t ->
  ball_rec_limit metric leb ltb gap dataset limit st q eps inc t result = Err OutOfFuel.
Proof.
  induction t as [s e|rad v l IHl r IHr]; intros [|limit] result H; try reflexivity; cbn [leaf_depth] in H; [lia|].
  cbn [ball_rec_limit]. cbv zeta. destruct (leb (metric v q) rad); [rewrite IHl by lia|rewrite IHr by lia]; reflexivity.
Qed.

Lemma knn_limit_low st k q t : forall limit h, limit <= leaf_depth t ->
  exists x, knn_rec_limit metric leb ltb gap dataset limit st k q t h = Err x.
Proof.
  induction t as [s e|rad v l IHl r IHr]; intros [|limit] h H; try (eexists; reflexivity); cbn [leaf_depth] in H; [lia|].
  cbn [knn_rec_limit]. cbv zeta. destruct (knn_offer ltb k (metric v q) v h) as [h1|x]; cbn [bind]; [|eauto].
  destruct (leb (metric v q) rad).
  - destruct (IHl limit h1 ltac:(lia)) as [x F]. rewrite F. eexists; reflexivity.
  - destruct (IHr limit h1 ltac:(lia)) as [x F]. rewrite F. eexists; reflexivity.
Qed.
End LimitProp.
