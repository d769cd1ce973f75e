(** Cubical covers in double precision and in exact arithmetic. *)
From Coq Require Import String Reals Lra Permutation Sorted.
From Flocq Require Import Core BinarySingleNaN.
From Verif Require Import Base BaseFacts ModelCore ModelVPTree ModelArith ModelCover ModelMetrics ModelFloat FloatFacts SpecDouble SpecMetric
  SpecMetrics SpecCore SpecCover SpecCubical SpecNet SpecTuning TuningProp TuningCover CoverFacts CoverProp CubicalFacts CubicalProp Relate
  FloatMetric FloatAccuracy FloatCover FloatNamed FloatGrid FloatCubicalFit SpecFaithful Faithful.
Open Scope R_scope.

Section Landmarks.
Variables (b : bounds BA) (b' : bounds RA) (X : list (list b64)).
Hypothesis Ho : forall x, In x X -> offset BA b x = offset RA b' (reals x).
Definition landmark_rel (p : list Z * list b64) (q : list Z * list R) : Prop :=
  fst q = fst p /\ snd q = reals (snd p) /\ In (snd p) X.

Lemma existsb_rel k lm lm' : Forall2 landmark_rel lm lm' ->
  existsb (fun p => cell_eqb (fst p) k) lm = existsb (fun p => cell_eqb (fst p) k) lm'.
Proof. intro F. induction F as [|p q lm lm' [E _] F IH]; simpl; [reflexivity|]. rewrite E, IH. reflexivity. Qed.

Lemma landmarks_rel : Forall2 landmark_rel (landmarks BA b X) (landmarks RA b' (map reals X)).
Proof.
  unfold landmarks.
  assert (G : forall L lm lm', incl L X -> Forall2 landmark_rel lm lm' ->
    Forall2 landmark_rel
      (fold_left (fun lm x => if existsb (fun p => cell_eqb (fst p) (offset BA b x)) lm then lm else (offset BA b x, x) :: lm) L lm)
      (fold_left (fun lm x => if existsb (fun p => cell_eqb (fst p) (offset RA b' x)) lm then lm else (offset RA b' x, x) :: lm)
         (map reals L) lm')).
  { induction L as [|x L IH]; intros lm lm' HL F; [exact F|]. cbn [map fold_left].
    assert (Ix : In x X) by (apply HL; left; reflexivity). apply IH; [intros y Hy; apply HL; right; exact Hy|].
    rewrite <- (Ho x Ix). pose proof (existsb_rel (offset BA b x) lm lm' F) as EE.
    match goal with |- Forall2 _ (if ?u then _ else _) (if ?v then _ else _) => replace v with u by exact EE; destruct u end; [exact F|].
    constructor; [|exact F]. repeat split. exact Ix. }
  apply (G X); [intros x Hx; exact Hx|constructor].
Qed.

Lemma landmark_loop_rel (s : list b64 -> res (list nat)) (s' : list R -> res (list nat)) :
  (forall x, In x X -> same_answer (s x) (s' (reals x))) ->
  forall lm lm', Forall2 landmark_rel lm lm' -> same_sets (landmark_loop BA s lm) (landmark_loop RA s' lm').
Proof.
  intros H lm lm' F. induction F as [|[k x] [k' x'] lm lm' [_ [E Ix]] F IH]; simpl; [split; [reflexivity|constructor]|].
  simpl in E, Ix. subst x'. specialize (H x Ix). destruct IH as [IH1 IH2]. unfold same_answer in H.
  destruct (s x) as [l|e], (s' (reals x)) as [l'|e']; try contradiction; [|subst; split; [reflexivity|constructor]].
  destruct l as [|a l], l' as [|a' l']; [split; assumption|apply Permutation_length in H; discriminate|apply Permutation_length in H; discriminate|].
  split; [exact IH1|]. simpl. constructor; assumption.
Qed.
End Landmarks.

(** The net loop, on points and on what they stand for. *)
Lemma net_reals (fit' : list (list R) -> res (list R -> res (list nat))) X s' : fit' (map reals X) = Ok s' ->
  proximity_net fit' (map reals X) = proximity_net (fun _ => Ok (fun x => s' (reals x))) X.
Proof.
  intro E. symmetry. apply (proximity_net_rel stands).
  - apply stands_list.
  - rewrite E. constructor. intros x v ->. reflexivity.
Qed.

(** Cells that are clear of the borders are the same. *)
Lemma clear_cell n z E k k' : 0 <= E -> 0 <= z -> (forall i, (1 <= i <= n - 1)%Z -> E < Rabs (z - IZR i)) ->
  (0 <= k <= n - 1)%Z -> Rabs (z - (IZR k + 1 / 2)) <= 1 / 2 + E -> cell_number n z k' -> k = k'.
Proof.
  intros HE Hz Hc Hk Hn [C1 [C2 C3]]. apply Rabs_le_inv in Hn.
  destruct (Z.lt_trichotomy k k') as [L|[L|L]]; [|exact L|]; exfalso.
  - specialize (Hc k' ltac:(lia)). assert (K : (k + 1 <= k')%Z) by lia. apply IZR_le in K. rewrite plus_IZR in K.
    rewrite Rabs_right in Hc by lra. lra.
  - assert (Hk' : (k' < n - 1)%Z) by lia. specialize (C3 Hk'). assert (K : (k' + 1 <= k)%Z) by lia.
    pose proof (IZR_le _ _ K) as K'. rewrite plus_IZR in K'.
    assert (0 <= k')%Z. { assert (-1 < k')%Z; [|lia]. apply lt_IZR. change (IZR (-1)) with (-1). lra. }
    specialize (Hc k ltac:(lia)). rewrite Rabs_left1 in Hc by lra. lra.
Qed.

Section Cubical.
Variables (c : cubical BA) (c' : cubical RA) (m : nat) (X : list (list b64)) (lo hi : nat -> R) (ov : b64) (E : R).
Notation n := (cu_n_intervals BA c).
Hypothesis Hm : (1 <= m)%nat.
Hypothesis Hn : (1 <= n <= 2 ^ 50)%Z.
Hypothesis HX : X <> [].
Hypothesis Hrows : Forall (moderate m) X.
Hypothesis Hb : column_bounds m (map reals X) lo hi.
Hypothesis Hco : cu_overlap_frac BA c = Some ov.
Hypothesis Fov : finite ov.
Hypothesis HE : forall j, (j < m)%nat -> grid_error n (lo j) (hi j) <= E.
Hypothesis Hov : E < value ov <= 1 / 2.
Hypothesis Hbord : forall j, (j < m)%nat -> hi j - lo j <= eps64 \/ 2 * eps64 <= hi j - lo j.
Hypothesis Hlr : opt_magnitude (cu_leaf_radius BA c).
Hypothesis Hcap : (1 <= cu_leaf_capacity BA c)%nat.
Hypothesis Hkind : tp_kind (cu_tree BA c) <> OtherKind.
Hypothesis Hn' : cu_n_intervals RA c' = n.
Hypothesis Hco' : cu_overlap_frac RA c' = Some (value ov).
Hypothesis Hcap' : (1 <= cu_leaf_capacity RA c')%nat.
Hypothesis Hkind' : tp_kind (cu_tree RA c') <> OtherKind.
Notation p := (grid_pos n eps64 lo hi).
Notation r := (1 / (2 - 2 * value ov)).
Hypothesis Hclear : clear_of_grid E r m n p (map reals X).

Lemma grid_nonneg x j : In x X -> (j < m)%nat -> 0 <= p j (coord (reals x) j).
Proof.
  intros Ix Hj. destruct (Hb j Hj) as [_ [_ H]]. specialize (H (reals x) (in_map reals X x Ix)).
  unfold grid_pos. destruct (Rle_dec (hi j - lo j) eps64) as [L|L]; [lra|].
  assert (0 < eps64) by apply bpow_gt_0. assert (0 <= IZR n) by (apply IZR_le; lia).
  apply Rmult_le_pos; [apply Rmult_le_pos; lra|]. apply Rlt_le, Rinv_0_lt_compat. lra.
Qed.

Lemma cubical_faithful alg : same_sets (cubical_apply BA b_eps alg c X) (cubical_apply RA eps64 alg c' (map reals X)).
Proof.
  assert (Hov1 : E < value ov < 1) by lra.
  pose proof (E_bounds c m lo hi ov E Hm Hn HE Hov1 Hcap) as HE1.
  assert (0 <= IZR n) by (apply IZR_le; lia).
  assert (HE0 : 0 <= E). { destruct HE1 as [P _]. pose proof ur_pos. assert (0 <= 127 * ur * IZR n) by (repeat apply Rmult_le_pos; lra). lra. }
  assert (Hov' : 0 < value ov < 1) by lra.
  destruct (bounds_ok n m X lo hi Hn HX Hrows Hb) as [mn [dls [G [Lm [Ld Hax]]]]].
  destruct (fit_search n m X lo hi Hn HX Hrows mn dls Lm Ld Hax E HE HE1 c ov eq_refl Hco Fov Hov' Hlr Hcap Hkind G) as [search [Es Q]].
  set (bnd := mkbounds BA n mn dls) in *.
  assert (He : 0 <= eps64) by apply bpow_ge_0.
  assert (Hrows' : Forall (fun x => length x = m) (map reals X)).
  { rewrite Forall_map. eapply Forall_impl; [|exact Hrows]. intros x [L _]. unfold reals. rewrite map_length. exact L. }
  assert (HX' : map reals X <> []) by (destruct X; [congruence|discriminate]).
  destruct (fit_state_ok m eps64 (map reals X) lo hi c' (value ov) Hm ltac:(rewrite Hn'; lia) He Hrows' HX' Hb
     ltac:(rewrite Hco'; reflexivity) Hcap' Hkind' Hov') as [search' [Es' Q']].
  rewrite Hn' in Es', Q'. set (gb := grid_bounds m n eps64 lo hi) in *.
  assert (Both : forall x, In x X -> offset BA bnd x = offset RA gb (reals x) /\
     same_answer (cubical_query BA (bnd, search) x) (cubical_query RA (gb, search') (reals x))).
  { intros x Ix. destruct (Q x Ix) as [ids [E1 [Nd [A1 A2]]]].
    destruct (search_cube n m X lo hi Hn Hrows mn dls Lm Ld Hax E HE HE1 ov Fov Hov' x ids Ix (proj2 Hov) Hbord Nd A1 A2)
      as [[Lk Near] [_ [U1 U2]]]. fold bnd in Lk, Near, U1, U2.
    assert (Lx : length (reals x) = m).
    { rewrite Forall_forall in Hrows'. apply Hrows', in_map, Ix. }
    pose proof (offset_in_cell m n eps64 lo hi) as Oc.
    assert (IC : in_cell m n p (reals x) (offset RA gb (reals x))) by (apply Oc; auto; lia). clear Oc.
    destruct IC as [Lk' IC].
    assert (Eo : offset BA bnd x = offset RA gb (reals x)).
    { apply (nth_ext _ _ 0%Z 0%Z); [congruence|]. intros j Hj. rewrite Lk in Hj.
      destruct (Near j Hj) as [B1 B2]. destruct (Hclear (reals x) j (in_map reals X x Ix) Hj) as [Cl _].
      exact (clear_cell n _ E _ _ HE0 (grid_nonneg x j Ix Hj) Cl B1 B2 (IC j Hj)). }
    split; [exact Eo|].
    destruct (Q' (reals x) Lx) as [ids' [E2 [Nd' B']]]. rewrite E2.
    assert (E1' : cubical_query BA (bnd, search) x = Ok ids) by exact E1. rewrite E1'. cbn.
    apply same_ids; [exact Nd|exact Nd'|]. intro i. rewrite B', <- Eo. split.
    - intro Hi. destruct (U1 i Hi) as [v [Nv Cv]]. exists v. split; [exact Nv|]. intros j Hj.
      destruct (Hclear v j (nth_error_In _ _ Nv) Hj) as [_ Cl]. destruct (Near j Hj) as [B1 _].
      specialize (Cv j Hj). destruct (Cl _ B1); lra.
    - intros [v [Nv Cv]]. apply (U2 i v Nv). intros j Hj.
      destruct (Hclear v j (nth_error_In _ _ Nv) Hj) as [_ Cl]. destruct (Near j Hj) as [B1 _].
      specialize (Cv j Hj). destruct (Cl _ B1); lra. }
  assert (F : cubical_fit BA b_eps c X = Ok (cubical_query BA (bnd, search))).
  { unfold cubical_fit. rewrite Es. destruct X; [congruence|reflexivity]. }
  assert (F' : cubical_fit RA eps64 c' (map reals X) = Ok (cubical_query RA (gb, search'))).
  { unfold cubical_fit. rewrite Es'. destruct (map reals X); [congruence|reflexivity]. }
  destruct alg; cbn [cubical_apply].
  - assert (N : same_sets (proximity_net (cubical_fit BA b_eps c) X)
                  (proximity_net (fun _ => Ok (fun x => cubical_query RA (gb, search') (reals x))) X)).
    { eapply proximity_net_same; [exact F|reflexivity|]. intros x Ix. apply (Both x Ix). }
    rewrite <- (net_reals _ X _ F') in N. exact N.
  - unfold standard_cubical_apply. rewrite Es, Es'.
    assert (L : same_sets (landmark_loop BA (cubical_query BA (bnd, search)) (landmarks BA bnd X))
                  (landmark_loop RA (cubical_query RA (gb, search')) (landmarks RA gb (map reals X)))).
    { eapply landmark_loop_rel; [|apply landmarks_rel]; intros x Ix; apply (Both x Ix). }
    destruct X as [|x0 X0] eqn:EX; [congruence|]. exact L.
  - split; [reflexivity|constructor].
Qed.
End Cubical.

Lemma cubical_graph {S : Type} (rows : list S) (clust : clustering S) (Hf : order_free clust)
  (c : cubical BA) (c' : cubical RA) m (X : list (list b64)) lo hi ov E alg :
  let n := cu_n_intervals BA c in
  (1 <= m)%nat -> (1 <= n <= 2 ^ 50)%Z -> X <> [] -> Forall (moderate m) X -> column_bounds m (map reals X) lo hi ->
  cu_overlap_frac BA c = Some ov -> finite ov ->
  (forall j, (j < m)%nat -> grid_error n (lo j) (hi j) <= E) -> E < value ov <= 1 / 2 ->
  (forall j, (j < m)%nat -> hi j - lo j <= eps64 \/ 2 * eps64 <= hi j - lo j) ->
  opt_magnitude (cu_leaf_radius BA c) -> (1 <= cu_leaf_capacity BA c)%nat -> tp_kind (cu_tree BA c) <> OtherKind ->
  cu_n_intervals RA c' = n -> cu_overlap_frac RA c' = Some (value ov) ->
  (1 <= cu_leaf_capacity RA c')%nat -> tp_kind (cu_tree RA c') <> OtherKind ->
  clear_of_grid E (1 / (2 - 2 * value ov)) m n (grid_pos n eps64 lo hi) (map reals X) ->
  let computed := cubical_apply BA b_eps alg c X in
  let exact := cubical_apply RA eps64 alg c' (map reals X) in
  same_sets computed exact /\
  (forall g, mapper_graph rows exact clust = Ok g ->
     exists g', mapper_graph rows computed clust = Ok g' /\ same_graph g g') /\
  (forall comps, mapper_connected_components rows exact clust = Ok comps ->
     exists comps', mapper_connected_components rows computed clust = Ok comps' /\ same_partition comps comps').
Proof.
  intros n H1 H2 H3 H4 H5 H6 H7 H8 H9 H10 H11 H12 H13 H14 H15 H16 H17 H18. cbv zeta.
  assert (Sm := cubical_faithful c c' m X lo hi ov E H1 H2 H3 H4 H5 H6 H7 H8 H9 H10 H11 H12 H13 H14 H15 H16 H17 H18 alg).
  assert (Sm' : same_sets (cubical_apply RA eps64 alg c' (map reals X)) (cubical_apply BA b_eps alg c X)).
  { destruct Sm as [E1 F]. split; [congruence|]. clear - F. induction F; constructor; auto. apply Permutation_sym. assumption. }
  assert (HE1 := E_bounds c m lo hi ov E H1 H2 H8 ltac:(lra) H12).
  assert (HE0 : 0 <= E). { destruct HE1 as [P _]. pose proof ur_pos. assert (0 <= IZR n) by (apply IZR_le; lia).
    assert (0 <= 127 * ur * IZR n) by (repeat apply Rmult_le_pos; lra). unfold n in *. lra. }
  assert (Nd : sets_nodup (yields (cubical_apply RA eps64 alg c' (map reals X)))).
  { apply (cubical_nodup m eps64 (map reals X) c' (value ov)); auto.
    - rewrite H14. lia.
    - split; [apply bpow_ge_0|]. change 1 with (bpow radix2 0). apply bpow_le. lia.
    - rewrite Forall_map. eapply Forall_impl; [|exact H4]. intros x [L _]. unfold reals. rewrite map_length. exact L.
    - destruct X; [congruence|discriminate].
    - rewrite H15. reflexivity.
    - lra. }
  split; [exact Sm|]. split; [exact (graphs_same rows clust Hf _ _ Sm' Nd)|exact (components_same rows clust Hf _ _ Sm' Nd)].
Qed.
