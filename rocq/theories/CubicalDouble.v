(** Hypercubes of a cubical cover computed in double precision belong to different cells. *)
From Coq Require Import Reals Lra Psatz Sorted.
From Flocq Require Import Core BinarySingleNaN Relative.
From Verif Require Import Base BaseFacts ModelCore SpecCore SpecNet CoreLabels CoreProp ModelQuickselect ModelVPTree ModelArith ModelMetrics ModelCover
  SpecCover SpecMetric SpecMetrics SpecCubical CoverFacts CoverProp CubicalFacts SpecOverlap OverlapFacts SpecPacking PackingFacts
  ModelFloat FloatFacts SpecDouble FloatCover FloatMetric FloatAccuracy FloatGrid FloatCubical FloatCubicalFit MetricProp.
Open Scope R_scope.

Section Any.
Variable A : arith.
Variable eps : num A.
Lemma cubical_distinct (c : cubical A) (X : list (vec A)) b search (Good : list Z -> list nat -> Prop) alg :
  X <> [] -> alg <> OtherAlgorithm -> cubical_fit_state A eps c X = Ok (b, search) ->
  (forall x, In x X -> exists ids, search (phi A b x) = Ok ids /\ Good (offset A b x) ids /\
     forall i, nth_error X i = Some x -> In i ids) ->
  exists cells, NoDup cells /\ Forall2 Good cells (yields (cubical_apply A eps alg c X)).
Proof.
  intros HX Ha E Q. destruct alg; [| |congruence]; cbn [cubical_apply].
  - assert (Ef : cubical_fit A eps c X = Ok (cubical_query A (b, search))).
    { unfold cubical_fit. rewrite E. destruct X; [congruence|reflexivity]. }
    destruct (net_greedy (cubical_fit A eps c) X _ Ef) as [cs [Sc [S2 S3]]].
    fold (proximity_cubical_apply A eps c X) in S2, S3. set (ys := yields (proximity_cubical_apply A eps c X)) in *.
    pose (At := fun j k => exists i s x, nth_error cs j = Some i /\ nth_error ys j = Some s /\ nth_error X i = Some x /\
      k = offset A b x /\ search (phi A b x) = Ok s /\ Good k s /\ In i s).
    destruct (choose At (seq 0 (length ys))) as [cells G].
    { intros j Ij. apply in_seq in Ij. destruct (nth_error ys j) as [s|] eqn:Es; [|apply nth_error_None in Es; lia].
      destruct (F2_nth _ _ _ _ _ S2 Es) as [i [Ei [[x [N Eq]] _]]]. destruct (Q x (nth_error_In _ _ N)) as [ids [E2 [Gd S]]].
      unfold cubical_query in Eq. simpl in Eq. assert (s = ids) by congruence. subst ids.
      exists (offset A b x), i, s, x. repeat (split; [solve [auto]|]). apply S, N. }
    assert (Lc : length cells = length ys) by (rewrite <- (F2_length _ _ _ G); apply seq_length).
    assert (Low : forall a a' k, (a' < a)%nat -> At a k -> At a' k -> False).
    { intros a a' k L [i [s [x [A1 [A2 [A3 [A4 [A5 [_ A6]]]]]]]]] [i' [s' [x' [B1 [B2 [B3 [B4 [B5 _]]]]]]]].
      assert (Ep : phi A b x = phi A b x') by (unfold phi; rewrite <- A4, <- B4; reflexivity).
      apply (S3 a a' i s' L A1 B2). assert (s = s') by congruence. subst s'. exact A6. }
    exists cells. split.
    + apply (choice_nodup _ _ _ G (seq_NoDup _ _)). intros a a' k _ _ Qa Qb.
      destruct (Nat.lt_trichotomy a a') as [L|[L|L]]; [exfalso; exact (Low a' a k L Qb Qa)|exact L|exfalso; exact (Low a a' k L Qa Qb)].
    + apply F2_of_nth; [exact Lc|]. intros j k s Ek Es. destruct (F2_nth _ _ _ _ _ G Ek) as [j' [Ej [i [s' [x [_ [A2 [_ [_ [_ [A5 _]]]]]]]]]]].
      assert (j' = j).
      { assert (Lj : (j < length ys)%nat) by exact (nth_error_lt _ _ _ Es).
        apply nth_error_nth with (d := 0%nat) in Ej. rewrite seq_nth in Ej by exact Lj. lia. }
      subst j'. assert (s' = s) by congruence. subst s'. exact A5.
  - assert (En : standard_cubical_apply A eps c X = landmark_loop A (cubical_query A (b, search)) (landmarks A b X)).
    { unfold standard_cubical_apply. rewrite E. destruct X; [congruence|reflexivity]. }
    change (landmarks A b X) with (lms (offset A b) X) in En.
    destruct (lms_ok (offset A b) X) as [L1 [L2 [L3 _]]]. set (lm := lms (offset A b) X) in *.
    assert (Hq : forall p, In p lm -> exists s, cubical_query A (b, search) (snd p) = Ok s /\ s <> []).
    { intros p Hp. destruct (L2 p Hp) as [Ip Kp]. destruct (Q (snd p) Ip) as [ids [E2 [_ S]]].
      exists ids. split; [exact E2|]. destruct (In_nth_error _ _ Ip) as [i N].
      pose proof (S i N). intros ->. contradiction. }
    destruct (landmark_loop_any A _ lm Hq) as [S1 S2]. rewrite <- En in S2. exists (map fst lm). split; [exact L1|].
    clear - S2 L2 Q. induction S2 as [|p s l l' [Es _] F IH]; constructor.
    + destruct (L2 p (or_introl eq_refl)) as [Ip Kp]. destruct (Q (snd p) Ip) as [ids [E2 [Gd _]]].
      unfold cubical_query in Es. simpl in Es. assert (s = ids) by congruence. subst. rewrite <- Kp. exact Gd.
    + apply IH. intros q Iq. apply L2. right. exact Iq.
Qed.
End Any.

Section Cover.
Variables (c : cubical BA) (m : nat) (X : list (list b64)) (lo hi : nat -> R) (ov : b64) (E : R).
Let n := cu_n_intervals BA c.
Hypothesis Hm : (1 <= m)%nat.
Hypothesis Hn : (1 <= n <= 2 ^ 50)%Z.
Hypothesis HX : X <> [].
Hypothesis Hrows : Forall (moderate m) X.
Hypothesis Hb : column_bounds m (map reals X) lo hi.
Hypothesis Hco : cu_overlap_frac BA c = Some ov.
Hypothesis Fov : finite ov.
Hypothesis HE : forall j, (j < m)%nat -> grid_error n (lo j) (hi j) <= E.
Hypothesis Hov : E < value ov <= 1 / 2.
Hypothesis Hlr : opt_magnitude (cu_leaf_radius BA c).
Hypothesis Hcap : (1 <= cu_leaf_capacity BA c)%nat.
Hypothesis Hkind : tp_kind (cu_tree BA c) <> OtherKind.
Hypothesis Hbord : forall j, (j < m)%nat -> hi j - lo j <= eps64 \/ 2 * eps64 <= hi j - lo j.

Lemma double_cells alg : alg <> OtherAlgorithm ->
  exists cells, NoDup cells /\ Forall2 (fun k s => exists x, In x X /\ near_cell E m n (grid_pos n eps64 lo hi) (reals x) k /\
     cube_up_to E m (1 / (2 - 2 * value ov)) (grid_pos n eps64 lo hi) (map reals X) k s) cells (yields (cubical_apply BA b_eps alg c X)).
Proof.
  intros Ha. assert (Hov1 : E < value ov < 1) by lra.
  pose proof (E_bounds c m lo hi ov E Hm Hn HE Hov1 Hcap) as HE1. fold n in HE1. assert (Hov' : 0 < value ov < 1).
  { destruct HE1 as [P _]. pose proof ur_pos. assert (1 <= IZR n) by (apply IZR_le; exact (proj1 Hn)). assert (0 < 127 * ur * IZR n) by (repeat apply Rmult_lt_0_compat; lra). split; lra. }
  destruct (bounds_ok n m X lo hi Hn HX Hrows Hb) as [mn [dls [G [Lm [Ld Hax]]]]].
  destruct (fit_search n m X lo hi Hn HX Hrows mn dls Lm Ld Hax E HE HE1 c ov eq_refl Hco Fov Hov' Hlr Hcap Hkind G) as [search [Es Q]].
  apply (cubical_distinct BA b_eps c X (mkbounds BA n mn dls) search); [exact HX|exact Ha|exact Es|].
  intros x Ix. destruct (Q x Ix) as [ids [E1 [Nd [A1 A2]]]]. exists ids. split; [exact E1|]. split.
  - exists x. split; [exact Ix|].
    exact (search_cube n m X lo hi Hn Hrows mn dls Lm Ld Hax E HE HE1 ov Fov Hov' x ids Ix (proj2 Hov) Hbord Nd A1 A2).
  - exact (search_own n m X lo hi Hn Hrows mn dls Lm Ld Hax E HE HE1 ov Fov Hov' x search ids Ix A2 E1 (proj1 Hov)).
Qed.
End Cover.

(** *** Counting *)
Section Count.
Variables (m K : nat) (n : Z) (r E : R) (p : nat -> R -> R) (X : list (list R)) (Y : list (list b64)) (cells : list (list Z)) (opens : list (list nat)).
Hypothesis HK : 2 * (r + E) <= INR K.
Hypothesis Hr : 0 < r + E.
Hypothesis N : NoDup cells.
Hypothesis F : Forall2 (fun k s => exists x, In x Y /\ near_cell E m n p (reals x) k /\ cube_up_to E m r p X k s) cells opens.

Lemma upto_nodup : sets_nodup opens.
Proof. unfold sets_nodup. clear - F. induction F as [|k s l l' [x [_ [_ [Nd _]]]] F' IH]; constructor; auto. Qed.
Lemma upto_cell k s i : nth_error opens k = Some s -> In i s -> exists z x, nth_error cells k = Some z /\ length z = m /\ nth_error X i = Some x /\ in_cube m (r + E) p z x.
Proof.
  intros Es I. destruct (F2_nth _ _ _ _ _ F Es) as [z [Ez [y [_ [[L _] [_ [Q _]]]]]]]. destruct (Q i I) as [x [Ex B]]. exists z, x. auto.
Qed.
Lemma upto_same k k' z : nth_error cells k = Some z -> nth_error cells k' = Some z -> k = k'.
Proof. intros A B. apply (proj1 (NoDup_nth_error cells) N); [exact (nth_error_lt _ _ _ A)|congruence]. Qed.

Lemma upto_count i js : sets_with opens i js -> (length js <= K ^ m)%nat.
Proof.
  intros [Nj H]. destruct js as [|j0 js0]; [simpl; apply Nat.le_0_l|]. set (js := j0 :: js0) in *.
  destruct (H j0 (or_introl eq_refl)) as [s0 [E0 I0]]. destruct (upto_cell j0 s0 i E0 I0) as [z0 [x [_ [_ [Ex _]]]]].
  destruct (choose (fun k z => nth_error cells k = Some z /\ length z = m /\ in_cube m (r + E) p z x) js) as [zs G].
  { intros k Ik. destruct (H k Ik) as [s [Es I]]. destruct (upto_cell k s i Es I) as [z [x' [Ez [L [Ex' B]]]]].
    assert (x' = x) by congruence. subst x'. exists z. auto. }
  rewrite (F2_length _ _ _ G). apply (cube_count m (r + E) p K x zs HK).
  - apply (choice_nodup _ _ _ G Nj). intros k k' z _ _ [A _] [B _]. exact (upto_same k k' z A B).
  - intros z I. destruct (F2_in _ _ _ _ G I) as [k [_ [_ Q]]]. exact Q.
Qed.

Lemma upto_degree {T} (X0 : list T) clust g gr : yields g = opens -> mapper_graph X0 g clust = Ok gr ->
  (forall k l l', is_cluster X0 opens clust k l -> is_cluster X0 opens clust k l' -> l = l') ->
  forall a nb, In (a, nb) (g_adj gr) -> (S (length nb) <= (2 * K - 1) ^ m)%nat.
Proof.
  intros Yg H One a nb I. destruct (edges_meet X0 clust opens upto_nodup g gr Yg H) as [W [name [[_ Nm] [Hn He]]]].
  assert (Nn : NoDup nb) by (destruct W as [_ [_ W]]; exact (W a nb I)).
  assert (K1 : (1 <= K)%nat) by (destruct K; [simpl in HK; lra|lia]).
  destruct nb as [|b0 nb0].
  { simpl length. rewrite <- (Nat.pow_1_l m) at 1. apply Nat.pow_le_mono_l. lia. }
  set (nb := b0 :: nb0) in *.
  destruct (He a b0) as [k [l [k0 [l0 [i0 [Ca [_ [Ea _]]]]]]]]; [exists nb; split; [exact I|left; reflexivity]|].
  assert (exists z, nth_error cells k = Some z /\ length z = m) as [z [Ez Lz]].
  { destruct (cluster_set opens X0 clust k l i0 Ca) as [o [S1 S2]]. destruct (upto_cell k o i0 S1 S2) as [z [x [C [L _]]]]. exists z. auto. }
  destruct (choose (fun b k' => exists l' z', is_cluster X0 opens clust k' l' /\ b = name k' l' /\ k <> k' /\
    nth_error cells k' = Some z' /\ length z' = m /\ SpecOverlap.near m K z z') nb) as [ks G].
  { intros b Ib. destruct (He a b) as [k1 [l1 [k' [l' [i [C1 [C2 [E1 [E2 D]]]]]]]]]; [exists nb; split; assumption|].
    assert (k = k1 /\ l = l1) as [<- <-] by (apply Nm; [exists i0; exact Ca|exists i; exact C1|congruence]).
    destruct (cluster_set opens X0 clust k l i C1) as [o [S1 S2]]. destruct (cluster_set opens X0 clust k' l' i C2) as [o' [S1' S2']].
    destruct (upto_cell k o i S1 S2) as [z1 [x [Q1 [_ [Q3 Q4]]]]]. destruct (upto_cell k' o' i S1' S2') as [z' [x' [Q1' [Q2' [Q3' Q4']]]]].
    assert (x' = x) by congruence. subst x'. assert (z1 = z) by congruence. subst z1.
    exists k', l', z'. split; [exists i; exact C2|]. repeat (split; [assumption|]). exact (cubes_near m (r + E) p K x z z' HK Q4 Q4'). }
  rewrite (F2_length _ _ _ G). change (S (length ks)) with (length (k :: ks)).
  destruct (choose (fun k' z' => nth_error cells k' = Some z' /\ length z' = m /\ SpecOverlap.near m K z z') (k :: ks)) as [zs G'].
  { intros k' [<-|Ik].
    - exists z. split; [exact Ez|]. split; [exact Lz|]. intros j _. rewrite Z.sub_diag. simpl. lia.
    - destruct (F2_in _ _ _ _ G Ik) as [b [_ [l' [z' [_ [_ [_ Q]]]]]]]. exists z'. exact Q. }
  rewrite (F2_length _ _ _ G'). apply (near_count m K z zs).
  - apply (choice_nodup _ _ _ G').
    + constructor.
      * intro Ik. destruct (F2_in _ _ _ _ G Ik) as [b [_ [l' [z' [_ [_ [D _]]]]]]]. apply D. reflexivity.
      * apply (choice_nodup _ _ _ G Nn). intros b b' k' _ _ [l1 [c1 [C1 [-> _]]]] [l2 [c2 [C2 [-> _]]]]. f_equal. exact (One k' l1 l2 C1 C2).
    + intros k1 k2 z' _ _ [A _] [B _]. exact (upto_same k1 k2 z' A B).
  - intros z' I'. destruct (F2_in _ _ _ _ G' I') as [k' [_ [_ Q]]]. exact Q.
Qed.
End Count.
