(** Public form of the vp-tree results. *)
From Verif Require Import Base SpecArray BaseFacts ModelQuickselect ModelHeap HeapFacts ModelVPTree
  SpecVPTree VPArrayFacts VPBuildFacts VPSearchFacts SpecMetric.
From Coq Require Import Reals Lra.
Open Scope nat_scope.

Section Generic.
Context {T D : Type}.
Variable metric : T -> T -> D.
Variables leb ltb : D -> D -> bool.
Variable gap : D -> D -> D.
Variable zero : D.
Notation vptree := (vptree metric leb ltb zero).
Notation ball_search := (ball_search metric leb ltb gap).
Notation knn_search := (knn_search metric leb ltb gap zero).
Notation cut_off := (cut_off metric leb ltb gap).
Notation in_ball := (in_ball metric leb ltb).
Notation ball_answer := (ball_answer metric leb ltb).
Notation knn_answer := (knn_answer metric leb).
Notation prune_safe := (prune_safe metric leb ltb gap).

Lemma cut_perm X ps q far x : Permutation X ps -> cut_off ps q far x -> cut_off X q far x.
Proof.
  intros P H. eapply cut_off_mono; [| |exact H]; auto.
  intros y Hy. eapply Permutation_in; [apply Permutation_sym; exact P|exact Hy].
Qed.

(** Ball search with any comparison, metric and subtraction. *)
Lemma flat_ball_general (par : vparams D) X :
  order_ok leb ltb gap -> 1 <= leaf_capacity par -> X <> [] ->
  exists t, vptree Flat par X = Ok t /\
    forall q eps inclusive, exists res missed,
      ball_search t q eps inclusive = Ok res /\
      Permutation (res ++ missed) (filter (in_ball q eps inclusive) X) /\
      Forall (cut_off X q (fun g => leb g eps = false)) missed.
Proof.
  intros Ho Hc Hn.
  destruct (build_flat_correct metric leb ltb gap zero par X Ho Hc Hn) as [st [ds [ps [ts [E [H [P V]]]]]]].
  exists (FlatT X st). unfold ModelVPTree.vptree. rewrite E. split; [reflexivity|].
  intros q eps incl. unfold ModelVPTree.ball_search, ball_flat.
  destruct (ball_loop_correct metric leb ltb gap X Ho st ds ps ts q eps incl 0 (length X) H V)
    as [n [found [missed [N [L [PP F]]]]]].
  exists found, missed.
  replace (2 * length X + 1) with (n + (2 * length X + 1 - n)) by lia. rewrite L. simpl app.
  split; [destruct (2 * length X + 1 - n); reflexivity|].
  rewrite (Permutation_length P), slice_full in PP. split.
  - rewrite PP. apply filter_perm, Permutation_sym, P.
  - eapply Forall_impl; [|exact F]. intros x Hx. eapply cut_perm; [exact P|exact Hx].
Qed.

Lemma hier_ball_general (par : vparams D) X :
  order_ok leb ltb gap -> 1 <= leaf_capacity par ->
  exists t, vptree Hierarchical par X = Ok t /\
    forall q eps inclusive, (forall v, In v X -> metric v q = metric q v) -> exists res missed,
      ball_search t q eps inclusive = Ok res /\
      Permutation (res ++ missed) (filter (in_ball q eps inclusive) X) /\
      Forall (cut_off X q (fun g => leb g eps = false)) missed.
Proof.
  intros Ho Hc.
  destruct (build_hier_correct metric leb ltb gap zero par X Ho Hc) as [t [st [ds [ps [E [H [P V]]]]]]].
  exists (HierT X t st). unfold ModelVPTree.vptree. rewrite E. split; [reflexivity|].
  intros q eps incl Hs. unfold ModelVPTree.ball_search.
  destruct (ball_rec_correct metric leb ltb gap X Ho st ds ps q eps incl 0 (length X) t H)
    as [found [missed [L [PP F]]]]; [|exact V|].
  { intros v Hv. apply Hs. eapply Permutation_in; [apply Permutation_sym; exact P|exact Hv]. }
  exists found, missed. rewrite L. simpl app. split; [reflexivity|].
  rewrite (Permutation_length P), slice_full in PP. split.
  - rewrite PP. apply filter_perm, Permutation_sym, P.
  - eapply Forall_impl; [|exact F]. intros x Hx. eapply cut_perm; [exact P|exact Hx].
Qed.

Lemma no_missed X q eps inclusive res missed :
  order_ok leb ltb gap -> prune_safe X q ->
  Permutation (res ++ missed) (filter (in_ball q eps inclusive) X) ->
  Forall (cut_off X q (fun g => leb g eps = false)) missed ->
  ball_answer X q eps inclusive res.
Proof.
  intros Ho Hp P F. destruct missed as [|x m]; [rewrite app_nil_r in P; exact P|]. exfalso.
  apply Forall_inv in F. destruct F as [v [y [H1 [H2 [H3 H4]]]]].
  assert (Hx : In x (filter (in_ball q eps inclusive) X)).
  { eapply Permutation_in; [exact P|]. apply in_or_app. right. left. reflexivity. }
  apply filter_In in Hx as [Hx1 Hx2].
  assert (Hd : leb (metric q x) eps = true).
  { unfold SpecVPTree.in_ball in Hx2. destruct inclusive; auto.
    apply (leb_false_le leb ltb gap Ho). apply (ltb_true leb ltb gap Ho). exact Hx2. }
  assert (Hg := Hp v y x H1 H2 Hx1 H3).
  rewrite (ord_trans _ _ _ Ho _ _ _ Hg Hd) in H4. discriminate.
Qed.

Lemma flat_ball_exact (par : vparams D) X :
  order_ok leb ltb gap -> 1 <= leaf_capacity par -> X <> [] ->
  exists t, vptree Flat par X = Ok t /\
    forall q eps inclusive, prune_safe X q ->
    exists res, ball_search t q eps inclusive = Ok res /\ ball_answer X q eps inclusive res.
Proof.
  intros Ho Hc Hn. destruct (flat_ball_general par X Ho Hc Hn) as [t [E H]]. exists t. split; [exact E|].
  intros q eps incl Hp. destruct (H q eps incl) as [res [missed [E2 [P F]]]]. exists res.
  split; [exact E2|]. eapply no_missed; eauto.
Qed.

Lemma hier_ball_exact (par : vparams D) X :
  order_ok leb ltb gap -> 1 <= leaf_capacity par ->
  exists t, vptree Hierarchical par X = Ok t /\
    forall q eps inclusive, (forall v, In v X -> metric v q = metric q v) -> prune_safe X q ->
    exists res, ball_search t q eps inclusive = Ok res /\ ball_answer X q eps inclusive res.
Proof.
  intros Ho Hc. destruct (hier_ball_general par X Ho Hc) as [t [E H]]. exists t. split; [exact E|].
  intros q eps incl Hs Hp. destruct (H q eps incl Hs) as [res [missed [E2 [P F]]]]. exists res.
  split; [exact E2|]. eapply no_missed; eauto.
Qed.

(** k nearest neighbours with any comparison, metric and subtraction: the
    returned entries are no farther than the other visited ones ([rest]) and than
    the spheres behind which entries were skipped ([missed]). *)
Definition knn_general_answer (X : list T) (q : T) (k : nat) (res : list T) : Prop :=
  length res = Nat.min k (length X) /\
  exists rest missed, Permutation X (res ++ rest ++ missed) /\
    (forall a b, In a res -> In b rest -> leb (metric q a) (metric q b) = true) /\
    Forall (cut_off X q (fun g => forall a, In a res -> leb (metric q a) g = true)) missed.

Lemma kinv_answer X ps k q P M h :
  Permutation X ps -> Permutation ps (P ++ M) -> kinv metric leb ltb gap ps k q P M h ->
  knn_general_answer X q k (map snd h).
Proof.
  intros HX HP [A1 A2 A3 [rest [A4 A5]] A6 A7]. split.
  - rewrite map_length, (Permutation_length HX), (Permutation_length HP), app_length.
    destruct M as [|m M]; [simpl; lia|]. specialize (A6 ltac:(discriminate)). lia.
  - exists rest, M. split; [|split; [exact A5|]].
    + rewrite HX, HP, A4, <- app_assoc. apply Permutation_refl.
    + eapply Forall_impl; [|exact A7]. intros x Hx. eapply cut_perm; [exact HX|exact Hx].
Qed.

Lemma get_items_id k (h : list (D * T)) : length h <= k -> get_items ltb k h = Ok (h, map snd h).
Proof. intro H. unfold get_items. rewrite pop_while_id by exact H. reflexivity. Qed.

Lemma flat_knn_general (par : vparams D) X :
  order_ok leb ltb gap -> 1 <= leaf_capacity par -> X <> [] ->
  exists t, vptree Flat par X = Ok t /\
    forall q k, exists res, knn_search t q k = Ok res /\ knn_general_answer X q k res.
Proof.
  intros Ho Hc Hn.
  destruct (build_flat_correct metric leb ltb gap zero par X Ho Hc Hn) as [st [ds [ps [ts [E [H [P V]]]]]]].
  exists (FlatT X st). unfold ModelVPTree.vptree. rewrite E. split; [reflexivity|].
  intros q k. unfold ModelVPTree.knn_search, knn_flat.
  destruct (knn_loop_correct metric leb ltb gap zero X Ho st ds ps ts k q 0 (length X) H V
     [] [] [] (kinv_nil metric leb ltb gap ps k q)) as [n [h' [seen [skipped [N [L [PP K]]]]]]].
  assert (E0 : (@nil (D * T), @None D) = ([], get_radius k (@nil (D * T)))).
  { unfold get_radius. destruct (length (@nil (D * T)) <? k); reflexivity. }
  rewrite E0.
  replace (3 * length X + 1) with (n + (3 * length X + 1 - n)) by lia. rewrite L.
  assert (E1 : knn_loop metric leb ltb gap zero X (3 * length X + 1 - n) st k q [] (h', get_radius k h')
               = Ok (h', get_radius k h')) by (destruct (3 * length X + 1 - n); reflexivity).
  rewrite E1. cbn [bind fst].
  assert (Hl : length h' <= k) by (destruct K as [_ _ A3 _ _ _]; lia).
  rewrite (get_items_id k h' Hl). cbn [bind fst]. rewrite (get_items_id k h' Hl). cbn [bind snd].
  exists (map snd h'). split; [reflexivity|].
  rewrite (Permutation_length P), slice_full in PP. simpl in K. eapply kinv_answer; eauto.
Qed.

Lemma hier_knn_general (par : vparams D) X :
  order_ok leb ltb gap -> 1 <= leaf_capacity par ->
  exists t, vptree Hierarchical par X = Ok t /\
    forall q k, (forall v, In v X -> metric v q = metric q v) ->
    exists res, knn_search t q k = Ok res /\ knn_general_answer X q k res.
Proof.
  intros Ho Hc.
  destruct (build_hier_correct metric leb ltb gap zero par X Ho Hc) as [t [st [ds [ps [E [H [P V]]]]]]].
  exists (HierT X t st). unfold ModelVPTree.vptree. rewrite E. split; [reflexivity|].
  intros q k Hs. unfold ModelVPTree.knn_search, knn_hier.
  destruct (knn_rec_correct metric leb ltb gap zero X Ho st ds ps k q 0 (length X) t H) with (P := @nil T) (M := @nil T) (h := @nil (D * T))
    as [h' [seen [skipped [L [PP K]]]]]; [|exact V|apply kinv_nil|].
  { intros v Hv. apply Hs. eapply Permutation_in; [apply Permutation_sym; exact P|exact Hv]. }
  rewrite L. cbn [bind].
  assert (Hl : length h' <= k) by (destruct K as [_ _ A3 _ _ _]; lia).
  rewrite (get_items_id k h' Hl). cbn [bind snd].
  exists (map snd h'). split; [reflexivity|].
  rewrite (Permutation_length P), slice_full in PP. simpl in K. eapply kinv_answer; eauto.
Qed.

Lemma knn_general_exact X q k res :
  order_ok leb ltb gap -> prune_safe X q -> knn_general_answer X q k res -> knn_answer X q k res.
Proof.
  intros Ho Hp [Hl [rest [missed [P [H1 H2]]]]]. split; [exact Hl|].
  exists (rest ++ missed). split; [exact P|]. intros a b Ha Hb. apply in_app_or in Hb as [Hb|Hb]; auto.
  rewrite Forall_forall in H2. destruct (H2 b Hb) as [v [y [I1 [I2 [I3 I4]]]]].
  eapply (ord_trans _ _ _ Ho); [apply I4, Ha|]. apply Hp; auto.
  eapply Permutation_in; [apply Permutation_sym; exact P|]. apply in_or_app. right. apply in_or_app. auto.
Qed.

Lemma flat_knn_exact (par : vparams D) X :
  order_ok leb ltb gap -> 1 <= leaf_capacity par -> X <> [] ->
  exists t, vptree Flat par X = Ok t /\
    forall q k, prune_safe X q ->
    exists res, knn_search t q k = Ok res /\ knn_answer X q k res.
Proof.
  intros Ho Hc Hn. destruct (flat_knn_general par X Ho Hc Hn) as [t [E H]]. exists t. split; [exact E|].
  intros q k Hp. destruct (H q k) as [res [E2 A]]. exists res. split; [exact E2|].
  apply knn_general_exact; auto.
Qed.

Lemma hier_knn_exact (par : vparams D) X :
  order_ok leb ltb gap -> 1 <= leaf_capacity par ->
  exists t, vptree Hierarchical par X = Ok t /\
    forall q k, (forall v, In v X -> metric v q = metric q v) -> prune_safe X q ->
    exists res, knn_search t q k = Ok res /\ knn_answer X q k res.
Proof.
  intros Ho Hc. destruct (hier_knn_general par X Ho Hc) as [t [E H]]. exists t. split; [exact E|].
  intros q k Hs Hp. destruct (H q k Hs) as [res [E2 A]]. exists res. split; [exact E2|].
  apply knn_general_exact; auto.
Qed.

(** Two answers to the same query. *)
Lemma filter_len_le {X} (f : X -> bool) l : length (filter f l) <= length l.
Proof. induction l as [|x l IH]; simpl; auto. destruct (f x); simpl; lia. Qed.

Lemma knn_answer_count X q k res c :
  order_ok leb ltb gap -> knn_answer X q k res ->
  length (filter (fun x => leb (metric q x) c) res) =
  Nat.min k (length (filter (fun x => leb (metric q x) c) X)).
Proof.
  intros Ho [Hl [rest [P H]]]. set (f := fun x => leb (metric q x) c).
  assert (E : length (filter f X) = length (filter f res) + length (filter f rest)).
  { rewrite (Permutation_length (filter_perm f _ _ P)), filter_app, app_length. reflexivity. }
  assert (E2 : length X = length res + length rest) by (rewrite (Permutation_length P), app_length; reflexivity).
  pose proof (filter_len_le f res).
  destruct (filter f rest) as [|b r'] eqn:Er.
  - simpl in E. lia.
  - assert (Hb : In b rest /\ f b = true) by (apply filter_In; rewrite Er; left; reflexivity).
    destruct Hb as [Hb1 Hb2].
    assert (F : filter f res = res).
    { clear - H Hb1 Hb2 Ho. induction res as [|a l IH]; simpl; auto.
      assert (Ha : f a = true).
      { unfold f. eapply (ord_trans _ _ _ Ho); [apply H; [left; reflexivity|exact Hb1]|exact Hb2]. }
      rewrite Ha, IH; auto. intros a' b' Ha' Hb'. apply H; auto. right. exact Ha'. }
    assert (length rest > 0) by (destruct rest; simpl in *; [tauto|lia]).
    rewrite F in *. lia.
Qed.
End Generic.

(** *** Real distances *)
Section Real.
Open Scope R_scope.
Lemma Rleb_true a b : Rleb a b = true <-> a <= b.
Proof. unfold Rleb. destruct (Rle_dec a b); split; intros; auto; try discriminate; tauto. Qed.
Lemma Rleb_false a b : Rleb a b = false <-> b < a.
Proof. unfold Rleb. destruct (Rle_dec a b); split; auto; try discriminate; intros; lra. Qed.
Lemma Rltb_true a b : Rltb a b = true <-> a < b.
Proof. unfold Rltb. destruct (Rlt_dec a b); split; intros; auto; try discriminate; tauto. Qed.

Lemma R_order_ok_gap gap : (forall a b, gap a b = gap b a) -> order_ok Rleb Rltb gap.
Proof.
  intro Hg. split.
  - intros a b. rewrite !Rleb_true. lra.
  - intros a b c. rewrite !Rleb_true. lra.
  - intros a b. unfold Rleb, Rltb. destruct (Rlt_dec a b), (Rle_dec b a); simpl; auto; lra.
  - intros a b. rewrite Rleb_true, Hg. lra.
Qed.

Lemma Rgap_sym a b : Rgap a b = Rgap b a.
Proof. unfold Rgap. apply Rabs_minus_sym. Qed.

Lemma R_order_ok : order_ok Rleb Rltb Rgap.
Proof. apply R_order_ok_gap, Rgap_sym. Qed.

Context {T : Type}.
Variable d : T -> T -> R.

(** Separation bounds the difference, up to the slack of the triangle inequality. *)
Lemma separates_bound delta v y q x :
  symmetric d -> (forall a b c, d a c <= d a b + d b c + delta) ->
  separates d Rleb Rltb v (d v y) q x -> Rabs (d q v - d v y) <= d q x + delta.
Proof.
  intros Hs Ht [[H1 H2]|[H1 H2]].
  - apply Rleb_true in H1, H2. rewrite Rabs_left1 by lra.
    pose proof (Ht v q x). rewrite (Hs v q) in H. lra.
  - apply Rltb_true in H1. apply Rleb_true in H2. rewrite Rabs_right by lra.
    pose proof (Ht q x v). rewrite (Hs x v) in H. lra.
Qed.

Lemma pseudo_metric_prune_safe X q : symmetric d -> triangle_ineq d -> prune_safe d Rleb Rltb Rgap X q.
Proof.
  intros Hs Ht v y x _ _ _ H. apply Rleb_true.
  pose proof (separates_bound 0 v y q x Hs) as B. unfold Rgap.
  assert (forall a b c, d a c <= d a b + d b c + 0) by (intros a b c; specialize (Ht a b c); lra).
  specialize (B H0 H). lra.
Qed.

Notation vptreeR := (vptree d Rleb Rltb 0).
Notation ballR := (ball_search d Rleb Rltb Rgap).
Notation knnR := (knn_search d Rleb Rltb Rgap 0).

Lemma flat_ball_real (par : vparams R) X :
  pseudo_metric d -> (1 <= leaf_capacity par)%nat -> X <> [] ->
  exists t, vptreeR Flat par X = Ok t /\
    forall q eps inclusive, exists res, ballR t q eps inclusive = Ok res /\
      ball_answer d Rleb Rltb X q eps inclusive res.
Proof.
  intros [_ Hs Ht] Hc Hn.
  destruct (flat_ball_exact d Rleb Rltb Rgap 0 par X R_order_ok Hc Hn) as [t [E H]].
  exists t. split; [exact E|]. intros q eps incl. apply H, pseudo_metric_prune_safe; auto.
Qed.

Lemma hier_ball_real (par : vparams R) X :
  pseudo_metric d -> (1 <= leaf_capacity par)%nat ->
  exists t, vptreeR Hierarchical par X = Ok t /\
    forall q eps inclusive, exists res, ballR t q eps inclusive = Ok res /\
      ball_answer d Rleb Rltb X q eps inclusive res.
Proof.
  intros [_ Hs Ht] Hc.
  destruct (hier_ball_exact d Rleb Rltb Rgap 0 par X R_order_ok Hc) as [t [E H]].
  exists t. split; [exact E|]. intros q eps incl.
  apply H; [intros; apply Hs|apply pseudo_metric_prune_safe; auto].
Qed.

Lemma flat_knn_real (par : vparams R) X :
  pseudo_metric d -> (1 <= leaf_capacity par)%nat -> X <> [] ->
  exists t, vptreeR Flat par X = Ok t /\
    forall q k, exists res, knnR t q k = Ok res /\ knn_answer d Rleb X q k res.
Proof.
  intros [_ Hs Ht] Hc Hn.
  destruct (flat_knn_exact d Rleb Rltb Rgap 0 par X R_order_ok Hc Hn) as [t [E H]].
  exists t. split; [exact E|]. intros q k. apply H, pseudo_metric_prune_safe; auto.
Qed.

Lemma hier_knn_real (par : vparams R) X :
  pseudo_metric d -> (1 <= leaf_capacity par)%nat ->
  exists t, vptreeR Hierarchical par X = Ok t /\
    forall q k, exists res, knnR t q k = Ok res /\ knn_answer d Rleb X q k res.
Proof.
  intros [_ Hs Ht] Hc.
  destruct (hier_knn_exact d Rleb Rltb Rgap 0 par X R_order_ok Hc) as [t [E H]].
  exists t. split; [exact E|]. intros q k.
  apply H; [intros; apply Hs|apply pseudo_metric_prune_safe; auto].
Qed.

Lemma any_tree_real (kind : vkind) (par : vparams R) X :
  pseudo_metric d -> (1 <= leaf_capacity par)%nat -> X <> [] -> kind <> OtherKind ->
  exists t, vptreeR kind par X = Ok t /\
    (forall q eps inclusive, exists res, ballR t q eps inclusive = Ok res /\
      ball_answer d Rleb Rltb X q eps inclusive res) /\
    (forall q k, exists res, knnR t q k = Ok res /\ knn_answer d Rleb X q k res).
Proof.
  intros Hm Hc Hn Hk. destruct kind; [| |congruence].
  - destruct (flat_ball_real par X Hm Hc Hn) as [t [E H]].
    destruct (flat_knn_real par X Hm Hc Hn) as [t' [E' H']].
    rewrite E in E'. injection E' as <-. exists t. auto.
  - destruct (hier_ball_real par X Hm Hc) as [t [E H]].
    destruct (hier_knn_real par X Hm Hc) as [t' [E' H']].
    rewrite E in E'. injection E' as <-. exists t. auto.
Qed.

(** Lists of real distances with the same counts are permutations. *)
Lemma count_perm (l l' : list R) :
  (forall c, length (filter (fun z => Rleb z c) l) = length (filter (fun z => Rleb z c) l')) ->
  length l = length l' -> Permutation l l'.
Proof.
  intros H HL. apply (Permutation_count_occ Req_EM_T). intro x.
  (* the number of entries equal to x is the jump of the count at x *)
  assert (J : forall m : list R, exists e, 0 < e /\ forall z, In z m -> z < x -> z <= x - e).
  { induction m as [|z m [e [He IH]]].
    - exists 1. split; [lra|]. simpl. tauto.
    - destruct (Rlt_dec z x) as [Hz|Hz].
      + exists (Rmin e (x - z)). assert (M1 := Rmin_l e (x - z)). assert (M2 := Rmin_r e (x - z)).
        split; [apply Rmin_pos; lra|]. intros w [<-|Hw] Hlt; [lra|].
        specialize (IH w Hw Hlt). lra.
      + exists e. split; auto. intros w [<-|Hw] Hlt; [lra|]. auto. }
  destruct (J (l ++ l')) as [e [He HJ]].
  assert (C : forall m, incl m (l ++ l') ->
    (count_occ Req_EM_T m x + length (filter (fun z => Rleb z (x - e)) m) =
     length (filter (fun z => Rleb z x) m))%nat).
  { induction m as [|z m IH]; intro Hi; simpl; auto.
    assert (Hi' : incl m (l ++ l')) by (intros w Hw; apply Hi; right; exact Hw).
    specialize (IH Hi').
    assert (Hz : In z (l ++ l')) by (apply Hi; left; reflexivity).
    destruct (Req_EM_T z x) as [->|Hne].
    - replace (Rleb x (x - e)) with false by (symmetry; apply Rleb_false; lra).
      replace (Rleb x x) with true by (symmetry; apply Rleb_true; lra). simpl. lia.
    - destruct (Rlt_dec z x) as [Hlt|Hge].
      + specialize (HJ z Hz Hlt).
        replace (Rleb z (x - e)) with true by (symmetry; apply Rleb_true; lra).
        replace (Rleb z x) with true by (symmetry; apply Rleb_true; lra). simpl. lia.
      + replace (Rleb z (x - e)) with false by (symmetry; apply Rleb_false; lra).
        replace (Rleb z x) with false by (symmetry; apply Rleb_false; lra). exact IH. }
  pose proof (C l ltac:(intros w Hw; apply in_or_app; auto)) as C1.
  pose proof (C l' ltac:(intros w Hw; apply in_or_app; auto)) as C2.
  rewrite !H in C1. lia.
Qed.

Lemma filter_map_comm {A B} (f : A -> B) p l : filter p (map f l) = map f (filter (fun x => p (f x)) l).
Proof. induction l as [|x l IH]; simpl; auto. destruct (p (f x)); simpl; congruence. Qed.

(** Any two correct answers have the same points (ball) or distances (knn). *)
Lemma knn_answers_agree X q k res res' :
  knn_answer d Rleb X q k res -> knn_answer d Rleb X q k res' ->
  Permutation (map (d q) res) (map (d q) res').
Proof.
  intros H H'. apply count_perm.
  - intro c. rewrite !filter_map_comm, !map_length.
    rewrite (knn_answer_count d Rleb Rltb Rgap 0 X q k res c R_order_ok H).
    rewrite (knn_answer_count d Rleb Rltb Rgap 0 X q k res' c R_order_ok H'). reflexivity.
  - rewrite !map_length. destruct H as [-> _], H' as [-> _]. reflexivity.
Qed.

Lemma parameters_irrelevant (kind kind' : vkind) (par par' : vparams R) X :
  pseudo_metric d -> X <> [] ->
  (1 <= leaf_capacity par)%nat -> (1 <= leaf_capacity par')%nat ->
  kind <> OtherKind -> kind' <> OtherKind ->
  exists t t', vptreeR kind par X = Ok t /\ vptreeR kind' par' X = Ok t' /\
    (forall q eps inclusive, exists res res',
       ballR t q eps inclusive = Ok res /\ ballR t' q eps inclusive = Ok res' /\ Permutation res res') /\
    (forall q k, exists res res',
       knnR t q k = Ok res /\ knnR t' q k = Ok res' /\ Permutation (map (d q) res) (map (d q) res')).
Proof.
  intros Hm Hn Hc Hc' Hk Hk'.
  destruct (any_tree_real kind par X Hm Hc Hn Hk) as [t [E [HB HK]]].
  destruct (any_tree_real kind' par' X Hm Hc' Hn Hk') as [t' [E' [HB' HK']]].
  exists t, t'. split; [exact E|]. split; [exact E'|]. split.
  - intros q eps incl. destruct (HB q eps incl) as [res [R1 R2]], (HB' q eps incl) as [res' [R1' R2']].
    exists res, res'. split; [exact R1|]. split; [exact R1'|].
    unfold ball_answer in *. rewrite R2, R2'. apply Permutation_refl.
  - intros q k. destruct (HK q k) as [res [R1 R2]], (HK' q k) as [res' [R1' R2']].
    exists res, res'. split; [exact R1|]. split; [exact R1'|]. eapply knn_answers_agree; eauto.
Qed.

(** *** Rounded arithmetic *)
Variable rnd : R -> R.
Hypothesis Hrnd : rounding rnd.

Lemma rgap_symm a b : rgap rnd a b = rgap rnd b a.
Proof.
  destruct Hrnd as [_ Ho]. unfold rgap. replace (a - b) with (- (b - a)) by lra.
  rewrite Ho. apply Rabs_Ropp.
Qed.

Lemma rgap_abs a b : rgap rnd a b = rnd (Rabs (a - b)).
Proof.
  destruct Hrnd as [Hm Ho]. unfold rgap.
  assert (Z : rnd 0 = 0). { pose proof (Ho 0). rewrite Ropp_0 in H. lra. }
  destruct (Rle_dec 0 (a - b)) as [H|H].
  - rewrite (Rabs_right (a - b)) by lra. apply Rabs_right. rewrite <- Z. apply Rle_ge, Hm, H.
  - rewrite (Rabs_left (a - b)) by lra. rewrite Ho. apply Rabs_left1. rewrite <- Z. apply Hm. lra.
Qed.

Lemma rounded_order : order_ok Rleb Rltb (rgap rnd).
Proof. apply R_order_ok_gap, rgap_symm. Qed.

Lemma rounded_prune_safe X q :
  (forall x y, representable rnd (d x y)) -> symmetric d -> triangle_ineq d ->
  prune_safe d Rleb Rltb (rgap rnd) X q.
Proof.
  intros Hr Hs Ht v y x _ _ _ H. apply Rleb_true. rewrite rgap_abs, <- (Hr q x).
  apply Hrnd. pose proof (separates_bound 0 v y q x Hs) as B.
  assert (forall a b c, d a c <= d a b + d b c + 0) by (intros a b c; specialize (Ht a b c); lra).
  specialize (B H0 H). lra.
Qed.

(** Exactness with rounded subtraction. *)
Lemma rounded_exact (kind : vkind) (par : vparams R) X :
  (forall x y, representable rnd (d x y)) -> symmetric d -> triangle_ineq d ->
  (1 <= leaf_capacity par)%nat -> X <> [] -> kind <> OtherKind ->
  exists t, vptreeR kind par X = Ok t /\
    (forall q eps inclusive, exists res,
      ball_search d Rleb Rltb (rgap rnd) t q eps inclusive = Ok res /\
      ball_answer d Rleb Rltb X q eps inclusive res) /\
    (forall q k, exists res,
      knn_search d Rleb Rltb (rgap rnd) 0 t q k = Ok res /\ knn_answer d Rleb X q k res).
Proof.
  intros Hr Hs Ht Hc Hn Hk. pose proof rounded_order as Ho. destruct kind; [| |congruence].
  - destruct (flat_ball_exact d Rleb Rltb (rgap rnd) 0 par X Ho Hc Hn) as [t [E H]].
    destruct (flat_knn_exact d Rleb Rltb (rgap rnd) 0 par X Ho Hc Hn) as [t' [E' H']].
    rewrite E in E'. injection E' as <-. exists t. split; [exact E|]. split; intros.
    + apply H, rounded_prune_safe; auto.
    + apply H', rounded_prune_safe; auto.
  - destruct (hier_ball_exact d Rleb Rltb (rgap rnd) 0 par X Ho Hc) as [t [E H]].
    destruct (hier_knn_exact d Rleb Rltb (rgap rnd) 0 par X Ho Hc) as [t' [E' H']].
    rewrite E in E'. injection E' as <-. exists t. split; [exact E|]. split; intros.
    + apply H; [intros; apply Hs|apply rounded_prune_safe; auto].
    + apply H'; [intros; apply Hs|apply rounded_prune_safe; auto].
Qed.

(** Triangle inequality up to [delta]. *)
Lemma slack_ball (kind : vkind) (par : vparams R) X delta :
  symmetric d -> (forall a b c, d a c <= d a b + d b c + delta) ->
  (1 <= leaf_capacity par)%nat -> X <> [] -> kind <> OtherKind ->
  exists t, vptreeR kind par X = Ok t /\
    forall q eps inclusive, representable rnd eps -> exists res missed,
      ball_search d Rleb Rltb (rgap rnd) t q eps inclusive = Ok res /\
      Permutation (res ++ missed) (filter (in_ball d Rleb Rltb q eps inclusive) X) /\
      forall x, In x missed -> eps - delta < d q x.
Proof.
  intros Hs Ht Hc Hn Hk. pose proof rounded_order as Ho.
  assert (G : forall q eps x, representable rnd eps ->
    cut_off d Rleb Rltb (rgap rnd) X q (fun g => Rleb g eps = false) x -> eps - delta < d q x).
  { intros q eps x Hr [v [y [_ [_ [Hsep Hg]]]]]. apply Rleb_false in Hg. rewrite rgap_abs in Hg.
    pose proof (separates_bound delta v y q x Hs Ht Hsep) as B.
    destruct (Rle_dec (Rabs (d q v - d v y)) eps) as [L|L]; [|lra].
    apply (proj1 Hrnd) in L. rewrite Hr in L. lra. }
  destruct kind; [| |congruence].
  - destruct (flat_ball_general d Rleb Rltb (rgap rnd) 0 par X Ho Hc Hn) as [t [E H]].
    exists t. split; [exact E|]. intros q eps incl Hr. destruct (H q eps incl) as [res [missed [E2 [P F]]]].
    exists res, missed. split; [exact E2|]. split; [exact P|]. rewrite Forall_forall in F. intros x Hx. apply G; auto.
  - destruct (hier_ball_general d Rleb Rltb (rgap rnd) 0 par X Ho Hc) as [t [E H]].
    exists t. split; [exact E|]. intros q eps incl Hr.
    destruct (H q eps incl ltac:(intros; apply Hs)) as [res [missed [E2 [P F]]]].
    exists res, missed. split; [exact E2|]. split; [exact P|]. rewrite Forall_forall in F. intros x Hx. apply G; auto.
Qed.

Lemma slack_knn (kind : vkind) (par : vparams R) X delta :
  (forall x y, representable rnd (d x y)) ->
  symmetric d -> (forall a b c, d a c <= d a b + d b c + delta) ->
  (1 <= leaf_capacity par)%nat -> X <> [] -> kind <> OtherKind ->
  exists t, vptreeR kind par X = Ok t /\
    forall q k, exists res rest,
      knn_search d Rleb Rltb (rgap rnd) 0 t q k = Ok res /\
      length res = Nat.min k (length X) /\ Permutation X (res ++ rest) /\
      forall a b, In a res -> In b rest -> d q a <= Rmax (d q b) (rnd (d q b + delta)).
Proof.
  intros Hr Hs Ht Hc Hn Hk. pose proof rounded_order as Ho.
  assert (G : forall q k res, knn_general_answer d Rleb Rltb (rgap rnd) X q k res ->
    length res = Nat.min k (length X) /\ exists rest, Permutation X (res ++ rest) /\
      forall a b, In a res -> In b rest -> d q a <= Rmax (d q b) (rnd (d q b + delta))).
  { intros q k res [Hl [rest [missed [P [H1 H2]]]]]. split; [exact Hl|]. exists (rest ++ missed).
    split; [exact P|]. intros a b Ha Hb. apply in_app_or in Hb as [Hb|Hb].
    - specialize (H1 a b Ha Hb). apply Rleb_true in H1.
      pose proof (Rmax_l (d q b) (rnd (d q b + delta))). lra.
    - rewrite Forall_forall in H2. destruct (H2 b Hb) as [v [y [_ [_ [Hsep Hg]]]]].
      specialize (Hg a Ha). apply Rleb_true in Hg. rewrite rgap_abs in Hg.
      pose proof (separates_bound delta v y q b Hs Ht Hsep) as B. apply (proj1 Hrnd) in B.
      pose proof (Rmax_r (d q b) (rnd (d q b + delta))). lra. }
  destruct kind; [| |congruence].
  - destruct (flat_knn_general d Rleb Rltb (rgap rnd) 0 par X Ho Hc Hn) as [t [E H]].
    exists t. split; [exact E|]. intros q k. destruct (H q k) as [res [E2 A]].
    destruct (G q k res A) as [L [rest [P B]]]. exists res, rest. auto.
  - destruct (hier_knn_general d Rleb Rltb (rgap rnd) 0 par X Ho Hc) as [t [E H]].
    exists t. split; [exact E|]. intros q k. destruct (H q k ltac:(intros; apply Hs)) as [res [E2 A]].
    destruct (G q k res A) as [L [rest [P B]]]. exists res, rest. auto.
Qed.
End Real.
