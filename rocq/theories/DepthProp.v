(** Depth of the hierarchical tree. *)
From Verif Require Import Base BaseFacts ModelQuickselect ModelHeap ModelVPTree ModelDepth.

Section DepthProp.
Context {T D : Type}.
Variable metric : T -> T -> D.
Variables leb ltb : D -> D -> bool.
Variable gap : D -> D -> D.
Variable zero : D.
Variable dataset : list T.
Variable par : vparams D.
Notation build := (build_rec metric leb ltb zero par dataset).

Fixpoint height (t : @htree T D) : nat :=
  match t with HLeaf _ _ => 0 | HNode _ _ l r => S (Nat.max (height l) (height r)) end.

Lemma halves s e cap h : cap < e - s -> e - s <= cap * 2 ^ S h -> mid_ s e - S s <= cap * 2 ^ h /\ e - mid_ s e <= cap * 2 ^ h.
Proof.
  intros H1 H2. rewrite Nat.pow_succ_r' in H2. unfold mid_.
  pose proof (Nat.div_mod (s + e) 2 ltac:(lia)). pose proof (Nat.mod_upper_bound (s + e) 2 ltac:(lia)). nia.
Qed.

Lemma build_height fuel : forall s e c st t r h,
  build fuel s e c st = Ok (t, r) -> e - s <= leaf_capacity par * 2 ^ h ->
  height t <= h /\ build (S h) s e c st = Ok (t, r).
Proof.
  induction fuel as [|fuel IH]; intros s e c st t r h E Hs; [discriminate|]. cbn [build_rec] in E |- *.
  destruct (Nat.leb_spec (e - s) (leaf_capacity par)) as [L|L].
  { injection E as <- <-. split; [simpl; lia|reflexivity]. }
  destruct h as [|h]; [rewrite Nat.pow_0_r, Nat.mul_1_r in Hs; lia|].
  destruct (halves s e _ h L Hs) as [Hl Hr].
  destruct (update_hier metric ltb zero par dataset c st s e) as [[c1 st1]|x]; cbn [bind] in *; [|discriminate].
  destruct (get_point dataset st1 s) as [v|x]; cbn [bind] in *; [|discriminate].
  destruct (quickselect ltb st1 (S s) e (mid_ s e)) as [st2|x]; cbn [bind] in *; [|discriminate].
  destruct (get_distance st2 (mid_ s e)) as [rad|x]; cbn [bind] in *; [|discriminate].
  destruct (set_distance st2 s rad) as [st3|x]; cbn [bind] in *; [|discriminate].
  destruct (leb rad (leaf_radius par)).
  { injection E as <- <-. split; [simpl; lia|reflexivity]. }
  destruct (build fuel (S s) (mid_ s e) c1 st3) as [[tl [c2 st4]]|x] eqn:E1; cbn [bind] in E; [|discriminate].
  destruct (build fuel (mid_ s e) e c2 st4) as [[tr [c3 st5]]|x] eqn:E2; cbn [bind] in E; [|discriminate].
  destruct (IH _ _ _ _ _ _ h E1 Hl) as [H1 F1]. destruct (IH _ _ _ _ _ _ h E2 Hr) as [H2 F2].
  fold build. rewrite F1. cbn [bind]. rewrite F2. cbn [bind]. injection E as <- <-. split; [simpl; lia|reflexivity].
Qed.

Lemma ball_limit st q eps inc t : forall limit result, height t < limit ->
  ball_rec_limit metric leb ltb gap dataset limit st q eps inc t result = ball_rec metric leb ltb gap dataset st q eps inc t result.
Proof.
  induction t as [s e|rad v l IHl r IHr]; intros [|limit] result H; try (simpl in H; lia).
  - reflexivity.
  - cbn [height] in H. cbn [ball_rec ball_rec_limit]. cbv zeta.
    destruct (leb (metric v q) rad).
    + rewrite IHl by lia. destruct (ball_rec _ _ _ _ _ _ _ _ _ l _) as [x|x]; cbn [bind]; [|reflexivity].
      destruct (leb (gap (metric v q) rad) eps); [apply IHr; lia|reflexivity].
    + rewrite IHr by lia. destruct (ball_rec _ _ _ _ _ _ _ _ _ r _) as [x|x]; cbn [bind]; [|reflexivity].
      destruct (leb (gap (metric v q) rad) eps); [apply IHl; lia|reflexivity].
Qed.

Lemma knn_limit st k q t : forall limit h, height t < limit ->
  knn_rec_limit metric leb ltb gap dataset limit st k q t h = knn_rec metric leb ltb gap dataset st k q t h.
Proof.
  induction t as [s e|rad v l IHl r IHr]; intros [|limit] h H; try (simpl in H; lia).
  - reflexivity.
  - cbn [height] in H. cbn [knn_rec knn_rec_limit]. cbv zeta.
    destruct (knn_offer ltb k (metric v q) v h) as [h1|x]; cbn [bind]; [|reflexivity].
    destruct (leb (metric v q) rad).
    + rewrite IHl by lia. destruct (knn_rec _ _ _ _ _ _ _ _ l _) as [x|x]; cbn [bind]; [|reflexivity].
      match goal with |- (if ?b then _ else _) = _ => destruct b end; [apply IHr; lia|reflexivity].
    + rewrite IHr by lia. destruct (knn_rec _ _ _ _ _ _ _ _ r _) as [x|x]; cbn [bind]; [|reflexivity].
      match goal with |- (if ?b then _ else _) = _ => destruct b end; [apply IHl; lia|reflexivity].
Qed.

Lemma build_limit t st limit : build_hier metric leb ltb zero par dataset = Ok (t, st) ->
  length dataset <= leaf_capacity par * 2 ^ (limit - 1) -> 1 <= limit ->
  build_hier_limit metric leb ltb zero dataset par limit = Ok (t, st) /\ height t < limit.
Proof.
  intros E H L. unfold build_hier, build_hier_limit in *.
  destruct (0 <? length dataset); [|injection E as <- <-; split; [reflexivity|simpl; lia]].
  destruct (build _ _ _ _ _) as [[t' [c' st']]|x] eqn:B; cbn [bind fst snd] in E; [|discriminate].
  injection E as <- <-. destruct (build_height _ _ _ _ _ _ _ (limit - 1) B ltac:(lia)) as [H1 H2].
  replace (S (limit - 1)) with limit in H2 by lia. rewrite H2. split; [reflexivity|lia].
Qed.
End DepthProp.
