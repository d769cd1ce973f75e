(** Counting the balls around a point, and the nodes and edges of the Mapper graph. *)
From Coq Require Import Reals Lra Sorted Permutation.
From Verif Require Import Base BaseFacts ModelCore SpecCore SpecNet SpecMetric SpecMetrics SpecCubical SpecOverlap SpecPacking
  DictFacts UnionFindProp CoreLabels CoreGraph CoreProp OverlapFacts.
Open Scope R_scope.

(** *** Centers in a box *)
Definition slot (K : nat) (r : R) (z c : list R) (j : nat) : Z := (up ((coord c j - coord z j) * (INR K / r)) - 1)%Z.

Lemma slot_bounds K r z c j : 0 < r -> (1 <= K)%nat ->
  IZR (slot K r z c j) <= (coord c j - coord z j) * (INR K / r) < IZR (slot K r z c j) + 1.
Proof. intros Hr HK. unfold slot. rewrite minus_IZR. destruct (archimed ((coord c j - coord z j) * (INR K / r))). lra. Qed.

Lemma slot_range L K r z c j : 0 < r -> (1 <= K)%nat -> Rabs (coord c j - coord z j) < INR L * r ->
  (- Z.of_nat (L * K) <= slot K r z c j < - Z.of_nat (L * K) + Z.of_nat (2 * L * K))%Z.
Proof.
  intros Hr HK H. destruct (slot_bounds K r z c j Hr HK) as [B1 B2]. apply Rabs_def2 in H. destruct H as [HU HW].
  assert (PK : 1 <= INR K) by (apply (le_INR 1), HK). set (t := coord c j - coord z j) in *.
  assert (E : INR L * r * (INR K / r) = INR (L * K)) by (rewrite mult_INR; field; lra).
  assert (P : 0 < INR K / r) by (apply Rdiv_lt_0_compat; lra).
  assert (U : t * (INR K / r) < INR (L * K)) by (rewrite <- E; apply Rmult_lt_compat_r; lra).
  assert (W : - INR (L * K) < t * (INR K / r)).
  { rewrite <- E, Ropp_mult_distr_l. apply Rmult_lt_compat_r; lra. }
  rewrite (INR_IZR_INZ (L * K)) in U, W. split.
  - apply Z.lt_succ_r. apply lt_IZR. unfold Z.succ. rewrite plus_IZR, opp_IZR. lra.
  - replace (- Z.of_nat (L * K) + Z.of_nat (2 * L * K))%Z with (Z.of_nat (L * K)) by lia. apply lt_IZR. lra.
Qed.

Lemma slot_close K r z c c' j : 0 < r -> (1 <= K)%nat -> slot K r z c j = slot K r z c' j -> Rabs (coord c j - coord c' j) < r / INR K.
Proof.
  intros Hr HK E. pose proof (slot_bounds K r z c j Hr HK) as B. pose proof (slot_bounds K r z c' j Hr HK) as B'. rewrite E in B.
  assert (PK : 1 <= INR K) by (apply (le_INR 1), HK). assert (P : 0 < INR K / r) by (apply Rdiv_lt_0_compat; lra).
  apply (Rmult_lt_reg_r (INR K / r)); [exact P|]. replace (r / INR K * (INR K / r)) with 1 by (field; lra).
  rewrite <- (Rabs_right (INR K / r)) by lra. rewrite <- Rabs_mult. apply Rabs_def1; lra.
Qed.

(** Rows at distance at least [r] from each other and less than [L * r] from [z] in every column. *)
Lemma packing m K L d r (z : list R) (cs : list (list R)) : comparable m K d -> 0 < r -> (1 <= K)%nat ->
  NoDup cs -> (forall c, In c cs -> length c = m /\ forall j, (j < m)%nat -> Rabs (coord c j - coord z j) < INR L * r) ->
  (forall c c', In c cs -> In c' cs -> c <> c' -> r <= d c c') ->
  (length cs <= (2 * L * K) ^ m)%nat.
Proof.
  intros HC Hr HK N Hb Sep. set (cell := fun c => map (slot K r z c) (seq 0 m)).
  assert (Nth : forall c j, (j < m)%nat -> nth j (cell c) 0%Z = slot K r z c j).
  { intros c j Hj. unfold cell. rewrite nth_indep with (d' := slot K r z c 0%nat) by (rewrite map_length, seq_length; exact Hj).
    rewrite map_nth, seq_nth by exact Hj. reflexivity. }
  rewrite <- (map_length cell cs). apply (count_boxes (2 * L * K) m (fun _ => (- Z.of_nat (L * K))%Z)).
  - assert (Inj : forall c c', In c cs -> In c' cs -> cell c = cell c' -> c = c').
    { intros c c' I I' E. destruct (list_eq_dec Req_EM_T c c') as [Q|Q]; [exact Q|]. exfalso.
      destruct (Hb c I) as [L1 _], (Hb c' I') as [L2 _]. pose proof (Sep c c' I I' Q) as S1.
      assert (PK : 1 <= INR K) by (apply (le_INR 1), HK).
      assert (S2 : d c c' < INR K * (r / INR K)).
      { apply (proj2 (HC c c' L1 L2)); [apply Rdiv_lt_0_compat; lra|]. intros j Hj. apply (slot_close K r z); auto.
        rewrite <- !Nth by exact Hj. rewrite E. reflexivity. }
      replace (INR K * (r / INR K)) with r in S2 by (field; lra). lra. }
    clear - N Inj. induction N as [|c cs Nc N IH]; [constructor|]. simpl. constructor.
    + intro I. apply in_map_iff in I. destruct I as [c' [E I]]. apply Nc. rewrite (Inj c c'); auto; [left; reflexivity|right; exact I].
    + apply IH. intros a b Ia Ib. apply Inj; right; assumption.
  - intros k I. apply in_map_iff in I. destruct I as [c [<- I]]. destruct (Hb c I) as [_ B]. split; [unfold cell; rewrite map_length; apply seq_length|].
    intros j Hj. rewrite Nth by exact Hj. apply slot_range; auto.
Qed.

(** *** The named distances are comparable *)
Lemma total_term f x y j : (forall a b, 0 <= f a b) -> (j < length x)%nat -> length x = length y -> f (coord x j) (coord y j) <= total f x y.
Proof.
  intro Hf. revert y j. induction x as [|a x IH]; intros [|b y] j Hj L; try discriminate; [simpl in Hj; lia|].
  assert (T : 0 <= total f x y) by (clear - Hf; revert y; induction x as [|a x IH]; intros [|b y]; simpl; try lra; specialize (IH y); pose proof (Hf a b); lra).
  destruct j as [|j]; simpl total; unfold coord; simpl nth; [lra|]. pose proof (Hf a b). fold (coord x j) (coord y j).
  assert (f (coord x j) (coord y j) <= total f x y) by (apply IH; simpl in Hj, L; lia). lra.
Qed.
Lemma total_less f x y c : length x = length y -> (forall j, (j < length x)%nat -> f (coord x j) (coord y j) <= c) -> total f x y <= INR (length x) * c.
Proof.
  revert y. induction x as [|a x IH]; intros [|b y] L H; try discriminate; [simpl; lra|].
  assert (I : total f x y <= INR (length x) * c) by (apply IH; [simpl in L; lia|]; intros j Hj; apply (H (S j)); simpl; lia).
  pose proof (H 0%nat ltac:(simpl; lia)) as H0. unfold coord in H0. simpl in H0. simpl length. rewrite S_INR. simpl total. lra.
Qed.

Lemma chebyshev_comparable m d : (forall x y, length x = m -> length y = m -> is_chebyshev x y (d x y)) -> comparable m 1 d.
Proof.
  intros H x y Lx Ly. destruct (H x y Lx Ly) as [H1 H2]. rewrite Lx in *. split; [exact H1|]. intros b Pb Hb. simpl. rewrite Rmult_1_l.
  destruct H2 as [[_ ->]|[j [Hj <-]]]; [exact Pb|apply Hb, Hj].
Qed.
Lemma max_diff m (x y : list R) b : 0 < b -> (forall j, (j < m)%nat -> Rabs (coord x j - coord y j) < b) ->
  exists e, 0 <= e < b /\ forall j, (j < m)%nat -> Rabs (coord x j - coord y j) <= e.
Proof.
  intro Pb. induction m as [|m IH]; intro H; [exists 0; split; [lra|]; intros j Hj; lia|].
  destruct IH as [e [He H1]]; [intros j Hj; apply H; lia|]. exists (Rmax e (Rabs (coord x m - coord y m))). split.
  - split; [eapply Rle_trans; [apply He|apply Rmax_l]|]. apply Rmax_lub_lt; [apply He|apply H; lia].
  - intros j Hj. destruct (Nat.eq_dec j m) as [->|Nj]; [apply Rmax_r|]. eapply Rle_trans; [apply H1; lia|apply Rmax_l].
Qed.
Lemma manhattan_comparable m K d : (m <= K)%nat -> (1 <= K)%nat -> (forall x y, length x = m -> length y = m -> is_manhattan x y (d x y)) -> comparable m K d.
Proof.
  intros HK H1 H x y Lx Ly. rewrite (H x y Lx Ly). split.
  - intros j Hj. apply (total_term (fun a b => Rabs (a - b))); [intros; apply Rabs_pos|lia|lia].
  - intros b Pb Hb. destruct (max_diff m x y b Pb Hb) as [e [He Hm]].
    apply Rle_lt_trans with (INR (length x) * e); [apply total_less; [lia|]; rewrite Lx; exact Hm|].
    rewrite Lx. apply (le_INR m K) in HK. apply (le_INR 1 K) in H1. simpl in H1. pose proof (pos_INR m).
    apply Rle_lt_trans with (INR K * e); [apply Rmult_le_compat_r; lra|apply Rmult_lt_compat_l; lra].
Qed.
Lemma euclidean_comparable m K d : (m <= K * K)%nat -> (1 <= K)%nat -> (forall x y, length x = m -> length y = m -> is_euclidean x y (d x y)) -> comparable m K d.
Proof.
  intros HK H1 H x y Lx Ly. destruct (H x y Lx Ly) as [D0 DD]. split.
  - intros j Hj. apply Rsqr_incr_0_var; [|exact D0]. rewrite <- Rsqr_abs. unfold Rsqr. rewrite DD.
    apply (total_term (fun a b => (a - b) * (a - b))); [intros; apply Rle_0_sqr|lia|lia].
  - intros b Pb Hb. destruct (max_diff m x y b Pb Hb) as [e [He Hm]]. apply (le_INR 1 K) in H1. simpl in H1.
    apply Rsqr_incrst_0; [|exact D0|apply Rmult_le_pos; lra]. unfold Rsqr. rewrite DD.
    apply Rle_lt_trans with (INR (length x) * (e * e)).
    + apply total_less; [lia|]. rewrite Lx. intros j Hj. specialize (Hm j Hj). apply Rsqr_le_abs_1. rewrite (Rabs_right e) by lra. exact Hm.
    + rewrite Lx. apply (le_INR m) in HK. rewrite mult_INR in HK.
      apply Rle_lt_trans with (INR K * INR K * (e * e)); [apply Rmult_le_compat_r; [apply Rle_0_sqr|exact HK]|].
      replace (INR K * b * (INR K * b)) with (INR K * INR K * (b * b)) by ring. apply Rmult_lt_compat_l; [apply Rmult_lt_0_compat; lra|].
      apply Rmult_le_0_lt_compat; lra.
Qed.

Lemma power_lt p f a b : 0 < p -> (forall a, 0 <= a -> is_power p a (f a)) -> 0 <= a < b -> f a < f b.
Proof.
  intros Hp Hf [H0 H]. destruct (Hf b ltac:(lra)) as [[E _]|[_ Eb]]; [lra|].
  destruct (Hf a H0) as [[-> Ea]|[Pa Ea]]; rewrite Ea, Eb; [apply exp_pos|]. apply Rlt_Rpower_l; [exact Hp|lra].
Qed.
Lemma minkowski_comparable p m K d : 1 <= p -> (m <= K)%nat -> (1 <= K)%nat ->
  (forall x y, length x = m -> length y = m -> is_minkowski p x y (d x y)) -> comparable m K d.
Proof.
  intros Hp HK H1 H x y Lx Ly. destruct (H x y Lx Ly) as [D0 [f [Hf E]]].
  assert (F0 : forall a, 0 <= a -> 0 <= f a).
  { intros a Ha. destruct (Hf a Ha) as [[_ ->]|[_ ->]]; [lra|left; apply exp_pos]. }
  assert (Lt : forall a b, 0 <= a < b -> f a < f b) by (intros a b; apply (power_lt p); [lra|exact Hf]).
  assert (Le : forall a b, 0 <= a -> f a <= f b -> 0 <= b -> a <= b).
  { intros a b Ha Q Hb. destruct (Rle_lt_dec a b) as [R|R]; [exact R|]. specialize (Lt b a ltac:(lra)). lra. }
  split.
  - intros j Hj. apply Le; [apply Rabs_pos| |exact D0]. rewrite E.
    apply (total_term (fun a b => f (Rabs (a - b)))); [intros; apply F0, Rabs_pos|lia|lia].
  - intros b Pb Hb. destruct (max_diff m x y b Pb Hb) as [e [He Hm]].
    apply (le_INR 1) in H1. simpl in H1. apply (le_INR m) in HK. pose proof (pos_INR m) as Pm.
    assert (U : f (d x y) <= INR m * f e).
    { rewrite E, <- Lx. apply total_less; [lia|]. rewrite Lx. intros j Hj. specialize (Hm j Hj).
      destruct (Rle_lt_or_eq_dec _ _ Hm) as [Q| ->]; [|lra]. left. apply Lt. split; [apply Rabs_pos|exact Q]. }
    assert (V : f e < f b) by (apply Lt; lra).
    assert (W : INR K * f b <= f (INR K * b)).
    { assert (PK : 0 < INR K * b) by (apply Rmult_lt_0_compat; lra).
      destruct (Hf b ltac:(lra)) as [[Q _]|[_ ->]]; [lra|]. destruct (Hf (INR K * b) ltac:(lra)) as [[Q _]|[_ ->]]; [lra|].
      rewrite <- Rpower_mult_distr by lra.
      apply Rmult_le_compat_r; [left; apply exp_pos|]. rewrite <- (Rpower_1 (INR K)) at 1 by lra. apply Rle_Rpower; lra. }
    assert (Fe : 0 <= f e) by (apply F0; lra).
    assert (Q : f (d x y) < f (INR K * b)).
    { apply Rlt_le_trans with (INR K * f b); [|exact W]. apply Rle_lt_trans with (INR m * f e); [exact U|].
      apply Rle_lt_trans with (INR K * f e); [apply Rmult_le_compat_r; lra|apply Rmult_lt_compat_l; lra]. }
    assert (PK : 0 < INR K * b) by (apply Rmult_lt_0_compat; lra).
    destruct (Rlt_le_dec (d x y) (INR K * b)) as [R|R]; [exact R|]. exfalso.
    destruct (Rle_lt_or_eq_dec _ _ R) as [R'|R']; [specialize (Lt (INR K * b) (d x y) ltac:(lra)); lra|rewrite R' in Q; lra].
Qed.

(** *** Labels and graphs in terms of the number of sets around a point *)
Section Size.
Context {T : Type} (X : list T) (clust : clustering T) (opens : list (list nat)) (B : nat).
Hypothesis N : sets_nodup opens.
Hypothesis HB : forall i js, sets_with opens i js -> (length js <= B)%nat.

Lemma labels_bounded g out i lbls : yields g = opens -> mapper_labels X g clust = Ok out -> nth_error out i = Some lbls -> (length lbls <= B)%nat.
Proof.
  intros Yg H E.
  assert (Asc : StronglySorted Z.lt lbls).
  { assert (A : Forall (StronglySorted Z.lt) out) by (eapply labels_ascending; [exact H|rewrite Yg; exact N]).
    rewrite Forall_forall in A. apply A. exact (nth_error_In _ _ E). }
  assert (Nl : NoDup lbls) by (apply SSorted_Zlt_NoDup, Asc).
  destruct (labels_are_clusters X g clust out H) as [_ [name [Nm Hl]]]. rewrite Yg in *.
  destruct (choose (fun z k => exists l, in_cluster X opens clust k l i /\ z = name k l) lbls) as [ks F].
  { intros z I. apply (Hl i lbls E z) in I. destruct I as [k [l I]]. exists k, l. exact I. }
  rewrite (F2_length _ _ _ F). apply (HB i). split.
  - apply (choice_nodup _ _ _ F Nl). intros a a' b _ _ [l [A1 ->]] [l' [A2 ->]].
    f_equal. exact (same_set_not_adjacent X (mkgen opens None) clust N b l l' i A1 A2).
  - intros k I. destruct (F2_in _ _ _ _ F I) as [z [_ [l [Q _]]]]. exact (cluster_set opens X clust k l i Q).
Qed.

Lemma flat_length {A C} (f : A -> list C) l b : (forall a, In a l -> (length (f a) <= b)%nat) -> (length (flat_map f l) <= length l * b)%nat.
Proof.
  induction l as [|a l IH]; intro H; [simpl; lia|]. simpl. rewrite app_length.
  specialize (IH (fun x I => H x (or_intror I))). specialize (H a (or_introl eq_refl)). lia.
Qed.
Lemma adj_pairs_nodup (adj : list (Z * list Z)) : NoDup (map fst adj) -> (forall a nb, In (a, nb) adj -> NoDup nb) ->
  NoDup (flat_map (fun e => map (pair (fst e)) (snd e)) adj).
Proof.
  induction adj as [|[a nb] adj IH]; intros Na Nb; [constructor|]. simpl in Na. inversion Na as [|? ? Na1 Na2]; subst. simpl.
  assert (I2 : NoDup (flat_map (fun e => map (pair (fst e)) (snd e)) adj)) by (apply IH; [exact Na2|]; intros x l Ix; apply (Nb x l); right; exact Ix).
  pose proof (Nb a nb (or_introl eq_refl)) as Nnb. clear IH Nb Na.
  induction nb as [|b nb IHb]; simpl; [exact I2|]. inversion Nnb as [|? ? N1 N2]; subst. constructor; [|apply IHb, N2].
  intro I. apply in_app_or in I. destruct I as [I|I].
  - apply in_map_iff in I. destruct I as [b' [E I]]. injection E as ->. contradiction.
  - apply in_flat_map in I. destruct I as [[a' nb'] [I1 I3]]. simpl in I3. apply in_map_iff in I3. destruct I3 as [b' [E I3]].
    injection E as -> ->. apply Na1. apply in_map_iff. exists (a, nb'). split; [reflexivity|exact I1].
Qed.

Lemma size_bounded g gr : yields g = opens -> mapper_graph X g clust = Ok gr ->
  (length (g_nodes gr) <= length X * B)%nat /\ (ends gr <= length X * (B * (B - 1)))%nat.
Proof.
  intros Yg H. unfold mapper_graph in H. apply bind_ok in H. destruct H as [out [H1 H2]].
  assert (L : length out = length X) by (destruct (labels_are_clusters X g clust out H1) as [L _]; exact L).
  assert (Asc : forall i lbls, nth_error out i = Some lbls -> NoDup lbls).
  { intros i lbls E. apply SSorted_Zlt_NoDup.
    assert (A : Forall (StronglySorted Z.lt) out) by (eapply labels_ascending; [exact H1|rewrite Yg; exact N]).
    rewrite Forall_forall in A. apply A. exact (nth_error_In _ _ E). }
  assert (Bd : forall lbls, In lbls out -> (length lbls <= B)%nat).
  { intros lbls I. apply In_nth_error in I. destruct I as [i I]. exact (labels_bounded g out i lbls Yg H1 I). }
  destruct (graph_of_labels_correct out) as [gr' [E [[W1 [W2 W3]] [Hn [_ Ha]]]]]. rewrite E in H2. injection H2 as ->. split.
  - rewrite <- (map_length fst). rewrite <- L. apply Nat.le_trans with (length (flat_map (fun l : list Z => l) out)).
    + apply NoDup_incl_length; [exact W1|]. intros z I. apply Hn in I. destruct I as [i [lbls [I1 I2]]]. apply in_flat_map. exists lbls. split; [exact (nth_error_In _ _ I1)|exact I2].
    + apply flat_length. exact Bd.
  - rewrite <- L. unfold ends.
    set (pairs := flat_map (fun e : Z * list Z => map (pair (fst e)) (snd e)) (g_adj gr)).
    assert (Lp : length (flat_map snd (g_adj gr)) = length pairs).
    { unfold pairs. clear. induction (g_adj gr) as [|[a nb] l IH]; [reflexivity|]. simpl. rewrite !app_length, map_length, IH. reflexivity. }
    rewrite Lp. set (all := fun l : list Z => flat_map (fun a => map (pair a) (remove Z.eq_dec a l)) l).
    apply Nat.le_trans with (length (flat_map all out)).
    + apply NoDup_incl_length; [apply adj_pairs_nodup; [rewrite W2; exact W1|exact W3]|].
      intros [a b] I. apply in_flat_map in I. destruct I as [[a' nb] [I1 I2]]. simpl in I2. apply in_map_iff in I2. destruct I2 as [b' [Q I2]]. injection Q as -> ->.
      destruct (proj1 (Ha a b)) as [i [lbls [E1 E2]]]; [exists nb; split; assumption|].
      apply together_nodup in E2; [|exact (Asc i lbls E1)]. destruct E2 as [D [Ia Ib]].
      apply in_flat_map. exists lbls. split; [exact (nth_error_In _ _ E1)|]. apply in_flat_map. exists a. split; [exact Ia|].
      apply in_map, in_in_remove; [congruence|exact Ib].
    + apply flat_length. intros lbls I. specialize (Bd lbls I). apply Nat.le_trans with (length lbls * (B - 1))%nat; [|apply Nat.mul_le_mono_r, Bd].
      apply flat_length. intros a Ia. rewrite map_length. pose proof (remove_length_lt Z.eq_dec lbls a Ia). lia.
Qed.

(** Nodes that are adjacent come from different sets with a common point. *)
Lemma edges_meet g gr : yields g = opens -> mapper_graph X g clust = Ok gr ->
  well_formed gr /\ exists name, names_clusters X opens clust name /\
    (forall z, has_node gr z <-> exists k l, is_cluster X opens clust k l /\ z = name k l) /\
    forall a b, adjacent gr a b -> exists k l k' l' i,
      in_cluster X opens clust k l i /\ in_cluster X opens clust k' l' i /\ a = name k l /\ b = name k' l' /\ k <> k'.
Proof.
  intros Yg H. assert (N' : sets_nodup (yields g)) by (rewrite Yg; exact N).
  destruct (graph_nodes_are_clusters X g clust gr H N') as [W [name [Nm [Hn Ha]]]].
  pose proof (graph_edges_share_points X g clust gr H N') as He. rewrite Yg in *.
  split; [exact W|]. exists name. split; [exact Nm|]. split; [exact Hn|]. intros a b Ab. apply He in Ab.
  destruct Ab as [D [na [ia [nb [ib [i [A1 [B1 [Ia Ib]]]]]]]]].
  assert (Node : forall z s ids, node_attr gr z s ids -> In i ids -> exists k l, in_cluster X opens clust k l i /\ z = name k l).
  { intros z s ids Hz I. assert (Hz' : has_node gr z) by (apply in_map_iff; exists (z, (s, ids)); split; [reflexivity|exact Hz]).
    apply Hn in Hz'. destruct Hz' as [k [l [Cl ->]]]. exists k, l. split; [|reflexivity].
    destruct (Ha k l Cl) as [ids' [B1' [_ Q]]]. apply Q.
    assert (E : (s, ids) = (length ids', ids')).
    { destruct W as [Nd _]. clear - Nd Hz B1'. unfold node_attr in *. induction (g_nodes gr) as [|[y v] t IH]; [destruct Hz|].
      simpl in Nd. inversion Nd; subst. destruct Hz as [Hz|Hz], B1' as [B1'|B1'].
      - congruence.
      - injection Hz as -> ->. exfalso. apply H1. apply in_map_iff. eexists; split; [|exact B1']. reflexivity.
      - injection B1' as -> ->. exfalso. apply H1. apply in_map_iff. eexists; split; [|exact Hz]. reflexivity.
      - auto. }
    injection E as _ ->. exact I. }
  destruct (Node a na ia A1 Ia) as [k [l [C1 ->]]]. destruct (Node b nb ib B1 Ib) as [k' [l' [C2 ->]]].
  exists k, l, k', l', i. repeat (split; [first [assumption|reflexivity]|]). intros <-. apply D. f_equal.
  exact (same_set_not_adjacent X (mkgen opens None) clust N k l l' i C1 C2).
Qed.
End Size.

(** *** Balls *)
Lemma sorted_nodup l : StronglySorted lt l -> NoDup l.
Proof.
  intro S. induction S as [|c l S IH F]; constructor; [|exact IH]. intro I. rewrite Forall_forall in F. specialize (F c I). lia.
Qed.
Section Balls.
Variables (m K : nat) (d : list R -> list R -> R) (r : R) (Y : list (list R)) (centers : list nat) (opens : list (list nat)).
Hypothesis HC : comparable m K d.
Hypothesis Hr : 0 < r.
Hypothesis HK : (1 <= K)%nat.
Hypothesis HY : Forall (fun y => length y = m) Y.
Hypothesis Hs : StronglySorted lt centers.
Hypothesis HF : Forall2 (fun i s => exists x, nth_error Y i = Some x /\ NoDup s /\ In i s /\
                   forall j, In j s <-> exists y, nth_error Y j = Some y /\ d x y < r) centers opens.
Hypothesis Sep : forall a b x y, In a centers -> In b centers -> a <> b -> nth_error Y a = Some x -> nth_error Y b = Some y -> r <= d x y.

Lemma row i x : nth_error Y i = Some x -> length x = m.
Proof. intro E. rewrite Forall_forall in HY. apply HY. exact (nth_error_In _ _ E). Qed.
Lemma centers_nodup : NoDup centers.
Proof. exact (sorted_nodup centers Hs). Qed.
Lemma balls_nodup : sets_nodup opens.
Proof.
  unfold sets_nodup. revert HF. clear. intro F. induction F as [|i s l l' [x [_ [N _]]] F IH]; constructor; assumption.
Qed.

(** Sets at positions [ks], whose centers are all near [z]. *)
Definition center_at (k : nat) (c : list R) : Prop := exists i, nth_error centers k = Some i /\ nth_error Y i = Some c.
Lemma centers_apart k k' c c' : center_at k c -> center_at k' c' -> k <> k' -> r <= d c c'.
Proof.
  intros [i [A1 A2]] [i' [B1 B2]] D. apply (Sep i i'); auto; try (eapply nth_error_In; eassumption). intros <-. apply D.
  apply (proj1 (NoDup_nth_error centers) centers_nodup); [exact (nth_error_lt _ _ _ A1)|congruence].
Qed.
Lemma same_center k k' c : center_at k c -> center_at k' c -> k = k'.
Proof.
  intros A B. destruct (Nat.eq_dec k k') as [E|D]; [exact E|]. exfalso. pose proof (centers_apart k k' c c A B D) as Q.
  assert (L : length c = m) by (destruct A as [i [_ A]]; exact (row i c A)).
  assert (Q' : d c c < INR K * (r / INR K)).
  { assert (P : 1 <= INR K) by (apply (le_INR 1), HK). apply (proj2 (HC c c L L)); [apply Rdiv_lt_0_compat; lra|]. intros j _.
    rewrite Rminus_diag_eq by reflexivity. rewrite Rabs_R0. apply Rdiv_lt_0_compat; lra. }
  assert (P : INR K <> 0) by (apply not_0_INR; lia). replace (INR K * (r / INR K)) with r in Q' by (field; exact P). lra.
Qed.
Lemma set_center k s i : nth_error opens k = Some s -> In i s -> exists c x, center_at k c /\ nth_error Y i = Some x /\ length x = m /\ d c x < r.
Proof.
  intros E I. destruct (F2_nth _ _ _ _ _ HF E) as [a [Ea [x [Ex [_ [_ Q]]]]]]. apply Q in I. destruct I as [y [Ey D]].
  exists x, y. split; [exists a; split; assumption|]. split; [exact Ey|]. split; [exact (row i y Ey)|exact D].
Qed.
Lemma near_centers L z ks : NoDup ks ->
  (forall k, In k ks -> exists c, center_at k c /\ forall j, (j < m)%nat -> Rabs (coord c j - coord z j) < INR L * r) ->
  (length ks <= (2 * L * K) ^ m)%nat.
Proof.
  intros N H. destruct (choose (fun k c => center_at k c /\ forall j, (j < m)%nat -> Rabs (coord c j - coord z j) < INR L * r) ks H) as [cs F].
  rewrite (F2_length _ _ _ F). apply (packing m K L d r z cs); auto.
  - apply (choice_nodup _ _ _ F N). intros k k' c _ _ [A _] [B _]. exact (same_center k k' c A B).
  - intros c I. destruct (F2_in _ _ _ _ F I) as [k [_ [[i [_ A]] B]]]. split; [exact (row i c A)|exact B].
  - intros c c' I I' D. destruct (F2_in _ _ _ _ F I) as [k [_ [A _]]]. destruct (F2_in _ _ _ _ F I') as [k' [_ [A' _]]].
    apply (centers_apart k k'); auto. intros <-. apply D. destruct A as [i [A1 A2]], A' as [i' [A1' A2']]. congruence.
Qed.
Lemma close_center c x j : center_at j c -> True -> length x = m -> d c x < r -> forall j, (j < m)%nat -> Rabs (coord c j - coord x j) < r.
Proof.
  intros [i [_ A]] _ L D q Hq. eapply Rle_lt_trans; [|exact D]. apply (proj1 (HC c x (row i c A) L)). exact Hq.
Qed.

Lemma balls_count i js : sets_with opens i js -> (length js <= (2 * K) ^ m)%nat.
Proof.
  intros [N H]. destruct js as [|j0 js0]; [simpl; apply Nat.le_0_l|]. set (js := j0 :: js0) in *.
  destruct (H j0 (or_introl eq_refl)) as [s0 [E0 I0]]. destruct (set_center j0 s0 i E0 I0) as [c0 [x [_ [Ex [Lx _]]]]].
  replace (2 * K)%nat with (2 * 1 * K)%nat by lia. apply (near_centers 1 x js N). intros k Ik. destruct (H k Ik) as [s [E I]].
  destruct (set_center k s i E I) as [c [x' [C [Ex' [_ D]]]]]. assert (x' = x) by congruence. subst x'. exists c. split; [exact C|].
  simpl INR. rewrite Rmult_1_l. exact (close_center c x k C Logic.I Lx D).
Qed.

Lemma balls_degree {T} (X : list T) clust g gr : yields g = opens -> mapper_graph X g clust = Ok gr ->
  (forall k l l', is_cluster X opens clust k l -> is_cluster X opens clust k l' -> l = l') ->
  forall a nb, In (a, nb) (g_adj gr) -> (S (length nb) <= (4 * K) ^ m)%nat.
Proof.
  intros Yg H One a nb I. destruct (edges_meet X clust opens balls_nodup g gr Yg H) as [W [name [[_ Nm] [Hn He]]]].
  assert (Nn : NoDup nb) by (destruct W as [_ [_ W]]; exact (W a nb I)).
  destruct nb as [|b0 nb0].
  { simpl length. rewrite <- (Nat.pow_1_l m) at 1. apply Nat.pow_le_mono_l. lia. }
  set (nb := b0 :: nb0) in *.
  destruct (He a b0) as [k [l [k0 [l0 [i0 [Ca [_ [Ea _]]]]]]]]; [exists nb; split; [exact I|left; reflexivity]|].
  assert (exists c, center_at k c) as [c Cc].
  { destruct (cluster_set opens X clust k l i0 Ca) as [s [S1 S2]]. destruct (set_center k s i0 S1 S2) as [c [x [C _]]]. exists c. exact C. }
  assert (Lc : length c = m) by (destruct Cc as [i [_ A]]; exact (row i c A)).
  destruct (choose (fun b k' => exists l' c', is_cluster X opens clust k' l' /\ b = name k' l' /\ k <> k' /\ center_at k' c' /\
    forall j, (j < m)%nat -> Rabs (coord c' j - coord c j) < INR 2 * r) nb) as [ks F].
  { intros b Ib. destruct (He a b) as [k1 [l1 [k' [l' [i [C1 [C2 [E1 [E2 D]]]]]]]]]; [exists nb; split; assumption|].
    assert (k = k1 /\ l = l1) as [<- <-] by (apply Nm; [exists i0; exact Ca|exists i; exact C1|congruence]).
    destruct (cluster_set opens X clust k l i C1) as [s [S1 S2]]. destruct (cluster_set opens X clust k' l' i C2) as [s' [S1' S2']].
    destruct (set_center k s i S1 S2) as [c1 [x [Q1 [Q2 [Q3 Q4]]]]]. destruct (set_center k' s' i S1' S2') as [c' [x' [Q1' [Q2' [_ Q4']]]]].
    assert (x' = x) by congruence. subst x'.
    assert (c1 = c) by (destruct Q1 as [i1 [U1 U2]], Cc as [i2 [V1 V2]]; congruence). subst c1.
    exists k', l', c'. split; [exists i; exact C2|]. split; [exact E2|]. split; [exact D|]. split; [exact Q1'|]. intros j Hj.
    pose proof (close_center c x k Q1 Logic.I Q3 Q4 j Hj) as R1. pose proof (close_center c' x k' Q1' Logic.I Q3 Q4' j Hj) as R2.
    apply Rabs_def2 in R1. apply Rabs_def2 in R2. apply Rabs_def1; simpl; lra. }
  rewrite (F2_length _ _ _ F). change (S (length ks)) with (length (k :: ks)). replace (4 * K)%nat with (2 * 2 * K)%nat by lia.
  apply (near_centers 2 c).
  - constructor.
    + intro Ik. destruct (F2_in _ _ _ _ F Ik) as [b [_ [l' [c' [_ [_ [D _]]]]]]]. apply D. reflexivity.
    + apply (choice_nodup _ _ _ F Nn). intros b b' k' _ _ [l1 [c1 [C1 [-> _]]]] [l2 [c2 [C2 [-> _]]]]. f_equal. exact (One k' l1 l2 C1 C2).
  - intros k' [<-|Ik].
    + exists c. split; [exact Cc|]. intros j _. rewrite Rminus_diag_eq by reflexivity. rewrite Rabs_R0. simpl. lra.
    + destruct (F2_in _ _ _ _ F Ik) as [b [_ [l' [c' [_ [_ [_ [C Q]]]]]]]]. exists c'. split; assumption.
Qed.
End Balls.

(** *** What [proximity_net] passes over *)
Section Net.
Context {S : Type} (search : S -> res (list nat)).

Lemma net_loop_complete xs : forall X i covered,
  (forall k, nth_error xs k = nth_error X (i + k)) -> (i + length xs = length X)%nat ->
  let net := net_loop search i xs covered in
  exists cs, Forall2 (fun c s => answer_at X search c s /\ s <> []) cs (yields net) /\
    StronglySorted lt cs /\ Forall (fun c => (i <= c)%nat /\ ~ In c covered) cs /\
    (forall k k' c s, (k' < k)%nat -> nth_error cs k = Some c -> nth_error (yields net) k' = Some s -> ~ In c s) /\
    (stops net = None -> forall j x, (i <= j)%nat -> nth_error X j = Some x ->
      In j covered \/ In j cs \/ search x = Ok [] \/
      exists k c s, nth_error cs k = Some c /\ nth_error (yields net) k = Some s /\ (c < j)%nat /\ In j s).
Proof.
  induction xs as [|x xs IH]; intros X i covered HX HL; cbn [net_loop].
  - exists []. split; [constructor|]. split; [constructor|]. split; [constructor|]. split.
    + intros k k' c s _ E. destruct k; discriminate.
    + intros _ j y Hj Hy. simpl in HL. apply nth_error_lt in Hy. lia.
  - assert (Hx : nth_error X i = Some x) by (rewrite <- (Nat.add_0_r i), <- HX; reflexivity).
    assert (HX' : forall k, nth_error xs k = nth_error X (Datatypes.S i + k)).
    { intro k. replace (Datatypes.S i + k)%nat with (i + Datatypes.S k)%nat by lia. rewrite <- HX. reflexivity. }
    assert (HL' : (Datatypes.S i + length xs = length X)%nat) by (simpl in HL; lia).
    destruct (existsb (Nat.eqb i) covered) eqn:Ec.
    + apply (existsb_in _ nat_eqb_decides) in Ec.
      destruct (IH X (Datatypes.S i) covered HX' HL') as [cs [F [Hs [Hc [Hm Hcov]]]]].
      exists cs. split; [exact F|]. split; [exact Hs|]. split; [|split; [exact Hm|]].
      * eapply Forall_impl; [|exact Hc]. intros c [H1 H2]. split; [lia|exact H2].
      * intros H0 j y Hj Hy. destruct (Nat.eq_dec j i) as [->|Hne]; [left; exact Ec|]. apply (Hcov H0 j y); [lia|exact Hy].
    + assert (Hnc : ~ In i covered). { intro H. apply (existsb_in _ nat_eqb_decides) in H. congruence. }
      destruct (search x) as [neigh|e] eqn:Es.
      2:{ exists []. cbn [yields stops]. split; [constructor|]. split; [constructor|]. split; [constructor|]. split.
          - intros k k' c s _ E. destruct k; discriminate.
          - discriminate. }
      destruct (IH X (Datatypes.S i) (neigh ++ covered) HX' HL') as [cs [F [Hs [Hc [Hm Hcov]]]]].
      set (rest := net_loop search (Datatypes.S i) xs (neigh ++ covered)) in *.
      assert (Hc' : Forall (fun c => (Datatypes.S i <= c)%nat /\ ~ In c neigh /\ ~ In c covered) cs).
      { eapply Forall_impl; [|exact Hc]. intros c [H1 H2]. rewrite in_app_iff in H2. tauto. }
      destruct neigh as [|n0 nt].
      * exists cs. split; [exact F|]. split; [exact Hs|]. split; [|split; [exact Hm|]].
        -- eapply Forall_impl; [|exact Hc']. intros c [H1 [_ H2]]. split; [lia|exact H2].
        -- intros H0 j y Hj Hy. destruct (Nat.eq_dec j i) as [->|Hne]; [|apply (Hcov H0 j y); [lia|exact Hy]].
           right. right. left. congruence.
      * set (neigh := n0 :: nt) in *. cbn [yields stops]. exists (i :: cs).
        split; [constructor; [split; [exists x; auto|discriminate]|exact F]|].
        split; [constructor; [exact Hs|]; eapply Forall_impl; [|exact Hc']; intros c [H1 _]; lia|].
        split; [constructor; [split; [lia|exact Hnc]|]; eapply Forall_impl; [|exact Hc']; intros c [H1 [_ H2]]; split; [lia|exact H2]|].
        split.
        -- intros [|k] [|k'] c s Hlt H1 H2; try lia; simpl in H1, H2.
           ++ injection H2 as <-. rewrite Forall_forall in Hc'. apply (Hc' c). eapply nth_error_In; eauto.
           ++ apply (Hm k k' c s); auto. lia.
        -- intros H0 j y Hj Hy. destruct (Nat.eq_dec j i) as [->|Hne]; [right; left; left; reflexivity|].
           destruct (Hcov H0 j y ltac:(lia) Hy) as [Q|[Q|[Q|[k [c [s [Q1 [Q2 [Q3 Q4]]]]]]]]].
           ++ apply in_app_or in Q. destruct Q as [Q|Q]; [|left; exact Q]. right. right. right.
              exists 0%nat, i, neigh. split; [reflexivity|]. split; [reflexivity|]. split; [lia|exact Q].
           ++ right. left. right. exact Q.
           ++ right. right. left. exact Q.
           ++ right. right. right. exists (Datatypes.S k), c, s. auto.
Qed.

Lemma net_first_come (fit : list S -> res (S -> res (list nat))) X : fit X = Ok search ->
  stops (proximity_net fit X) = None -> exists centers, first_come X search centers (yields (proximity_net fit X)).
Proof.
  intros E H. unfold proximity_net in *. rewrite E in *.
  destruct (net_loop_complete X X 0 [] (fun k => eq_refl) eq_refl) as [cs [F [Hs [Hc [Hm Hcov]]]]]. exists cs. split.
  - split; [exact Hs|]. split; [exact F|exact Hm].
  - intros i x Ex. destruct (Hcov H i x (Nat.le_0_l i) Ex) as [[]|Q]. exact Q.
Qed.

Lemma sorted_same l : forall l', StronglySorted lt l -> StronglySorted lt l' -> (forall i, In i l <-> In i l') -> l = l'.
Proof.
  induction l as [|a l IH]; intros [|b l'] S1 S2 H.
  - reflexivity.
  - exfalso. apply (proj2 (H b)). left. reflexivity.
  - exfalso. apply (proj1 (H a)). left. reflexivity.
  - inversion S1 as [|? ? S1' F1]; subst. inversion S2 as [|? ? S2' F2]; subst. rewrite Forall_forall in F1, F2.
    assert (a = b).
    { destruct (proj1 (H a) (or_introl eq_refl)) as [Q|Q]; [congruence|]. destruct (proj2 (H b) (or_introl eq_refl)) as [Q'|Q']; [congruence|].
      specialize (F1 b Q'). specialize (F2 a Q). lia. }
    subst b. f_equal. apply IH; auto. intro i. split; intro I.
    + destruct (proj1 (H i) (or_intror I)) as [<-|Q]; [|exact Q]. specialize (F1 a I). lia.
    + destruct (proj2 (H i) (or_intror I)) as [<-|Q]; [|exact Q]. specialize (F2 a I). lia.
Qed.

Lemma first_come_member X centers sets i : first_come X search centers sets ->
  In i centers <-> exists x s, nth_error X i = Some x /\ search x = Ok s /\ s <> [] /\
    forall c y s', In c centers -> (c < i)%nat -> nth_error X c = Some y -> search y = Ok s' -> ~ In i s'.
Proof.
  intros [[Hs [F Hm]] Hc].
  assert (Pos : forall k k' c c', nth_error centers k = Some c -> nth_error centers k' = Some c' -> (c' < c)%nat -> (k' < k)%nat).
  { intros k k' c c' E E' L. clear - Hs E E' L. revert k k' E E'. induction Hs as [|a l S IH H]; intros k k' E E'; [destruct k; discriminate|].
    rewrite Forall_forall in H. destruct k as [|k], k' as [|k']; simpl in E, E'.
    - injection E as ->. injection E' as ->. lia.
    - injection E as ->. apply nth_error_In in E'. specialize (H c' E'). lia.
    - lia.
    - specialize (IH k k' E E'). lia. }
  split.
  - intro I. apply In_nth_error in I. destruct I as [k Ek]. destruct (F2_nth_l _ _ _ _ _ F Ek) as [s [Es [[x [Ex Q]] Ne]]].
    exists x, s. split; [exact Ex|]. split; [exact Q|]. split; [exact Ne|]. intros c y s' Ic L Ey Sy.
    apply In_nth_error in Ic. destruct Ic as [k' Ek']. destruct (F2_nth_l _ _ _ _ _ F Ek') as [s2 [Es2 [[y2 [Ey2 Q2]] _]]].
    assert (y2 = y) by congruence. subst y2. assert (s2 = s') by congruence. subst s2. exact (Hm k k' i s' (Pos k k' i c Ek Ek' L) Ek Es2).
  - intros [x [s [Ex [Q [Ne H]]]]]. destruct (Hc i x Ex) as [I|[E|[k [c [s' [E1 [E2 [L I]]]]]]]]; [exact I|congruence|]. exfalso.
    destruct (F2_nth_l _ _ _ _ _ F E1) as [s2 [Es2 [[y [Ey Q2]] _]]]. assert (s2 = s') by congruence. subst s2.
    exact (H c y s' (nth_error_In _ _ E1) L Ey Q2 I).
Qed.

Lemma first_come_unique X centers sets centers' sets' : first_come X search centers sets -> first_come X search centers' sets' ->
  centers = centers' /\ sets = sets'.
Proof.
  intros H H'. assert (Q : forall i, In i centers <-> In i centers').
  { intro i. induction i as [i IH] using lt_wf_ind. rewrite (first_come_member X centers sets i H), (first_come_member X centers' sets' i H').
    split; intros [x [s [A [B [C D]]]]]; exists x, s; (split; [exact A|]); (split; [exact B|]); (split; [exact C|]);
      intros c y s' Ic L; apply (D c y s'); [apply IH; assumption|exact L|apply IH; assumption|exact L]. }
  destruct H as [[S1 [F1 _]] _], H' as [[S2 [F2 _]] _]. assert (E : centers = centers') by (apply sorted_same; assumption).
  split; [exact E|]. subst centers'. clear - F1 F2. revert sets' F2. induction F1 as [|c s l l' [[x [A B]] _] F1 IH]; intros sets' F2; inversion F2 as [|? s' ? l2 [[y [A' B']] _] F2']; subst; [reflexivity|].
  f_equal; [congruence|]. apply IH, F2'.
Qed.
End Net.
