(** Counting the grid cells whose hypercubes contain a point. *)
From Coq Require Import Reals Lra Sorted.
From Verif Require Import Base BaseFacts ModelCore SpecCore SpecCubical SpecOverlap CoreLabels CoreProp.
Open Scope R_scope.

(** The vectors with [length a] coordinates, the [j]-th one of [K] integers from [a_j]. *)
Fixpoint boxes (K : nat) (a : list Z) : list (list Z) :=
  match a with
  | [] => [[]]
  | z :: a' => flat_map (fun i => map (cons (z + Z.of_nat i)%Z) (boxes K a')) (seq 0 K)
  end.
Lemma flat_map_length_const {A B} (f : A -> list B) l n : (forall x, In x l -> length (f x) = n) ->
  length (flat_map f l) = (length l * n)%nat.
Proof.
  induction l as [|x l IH]; intro H; [reflexivity|]. simpl. rewrite app_length, IH, (H x); auto; [left; reflexivity|].
  intros y Y. apply H. right. exact Y.
Qed.
Lemma boxes_length K a : length (boxes K a) = (K ^ length a)%nat.
Proof.
  induction a as [|z a IH]; [reflexivity|]. simpl. rewrite (flat_map_length_const _ _ (K ^ length a)%nat).
  - rewrite seq_length. reflexivity.
  - intros x _. rewrite map_length. exact IH.
Qed.
Lemma in_boxes K a c : length c = length a ->
  (forall j, (j < length a)%nat -> (nth j a 0 <= nth j c 0 < nth j a 0 + Z.of_nat K)%Z) -> In c (boxes K a).
Proof.
  revert c. induction a as [|z a IH]; intros [|w c] L H; try discriminate L; [left; reflexivity|].
  simpl. apply in_flat_map. pose proof (H 0%nat) as H0. simpl in H0. exists (Z.to_nat (w - z)). split.
  - apply in_seq. lia.
  - apply in_map_iff. exists c. split; [f_equal; lia|]. apply IH; [simpl in L; lia|].
    intros j Hj. apply (H (S j)). simpl. lia.
Qed.

Lemma count_boxes K m (a : nat -> Z) cs : NoDup cs ->
  (forall c, In c cs -> length c = m /\ forall j, (j < m)%nat -> (a j <= nth j c 0 < a j + Z.of_nat K)%Z) ->
  (length cs <= K ^ m)%nat.
Proof.
  intros N H. set (l := map a (seq 0 m)). assert (Ll : length l = m) by (unfold l; rewrite map_length, seq_length; reflexivity).
  rewrite <- Ll, <- boxes_length. apply NoDup_incl_length; [exact N|]. intros c I. destruct (H c I) as [L B].
  apply in_boxes; [lia|]. rewrite Ll. intros j Hj.
  assert (E : nth j l 0%Z = a j).
  { unfold l. rewrite (nth_indep _ 0%Z (a 0%nat)) by (rewrite map_length, seq_length; exact Hj).
    rewrite map_nth, seq_nth by exact Hj. reflexivity. }
  rewrite E. apply B, Hj.
Qed.

(** An open interval of length at most [K] has at most [K] integers. *)
Lemma window z r K c : 2 * r <= INR K -> Rabs (z - (IZR c + 1 / 2)) < r ->
  (up (z - r - 1 / 2) <= c < up (z - r - 1 / 2) + Z.of_nat K)%Z.
Proof.
  intros HK H. apply Rabs_def2 in H. destruct (archimed (z - r - 1 / 2)) as [A1 A2]. rewrite INR_IZR_INZ in HK.
  split.
  - apply Z.lt_succ_r. apply lt_IZR. unfold Z.succ. rewrite plus_IZR. lra.
  - apply lt_IZR. rewrite plus_IZR. lra.
Qed.

Lemma cube_count m r p K x cs : 2 * r <= INR K -> NoDup cs ->
  (forall c, In c cs -> length c = m /\ in_cube m r p c x) -> (length cs <= K ^ m)%nat.
Proof.
  intros HK N H. apply (count_boxes K m (fun j => up (p j (coord x j) - r - 1 / 2))); [exact N|].
  intros c I. destruct (H c I) as [L B]. split; [exact L|]. intros j Hj. apply window; [exact HK|]. apply B, Hj.
Qed.
Lemma cubes_near m r p K x c c' : 2 * r <= INR K -> in_cube m r p c x -> in_cube m r p c' x -> near m K c c'.
Proof.
  intros HK H H' j Hj. specialize (H j Hj). specialize (H' j Hj). apply Rabs_def2 in H. apply Rabs_def2 in H'.
  rewrite INR_IZR_INZ in HK. apply lt_IZR. rewrite abs_IZR, minus_IZR. apply Rabs_def1; lra.
Qed.
Lemma near_count m K c cs : NoDup cs -> (forall c', In c' cs -> length c' = m /\ near m K c c') ->
  (length cs <= (2 * K - 1) ^ m)%nat.
Proof.
  intros N H. apply (count_boxes (2 * K - 1) m (fun j => nth j c 0 - Z.of_nat K + 1)%Z); [exact N|].
  intros c' I. destruct (H c' I) as [L B]. split; [exact L|]. intros j Hj. specialize (B j Hj). lia.
Qed.

(** *** Lists of choices *)
Lemma choose {A B} (P : A -> B -> Prop) l : (forall a, In a l -> exists b, P a b) -> exists l', Forall2 P l l'.
Proof.
  induction l as [|a l IH]; intro H; [exists []; constructor|].
  destruct (H a) as [b Hb]; [left; reflexivity|]. destruct IH as [l' Hl]; [intros x I; apply H; right; exact I|].
  exists (b :: l'). constructor; assumption.
Qed.
Lemma choice_nodup {A B} (P : A -> B -> Prop) l l' : Forall2 P l l' -> NoDup l ->
  (forall a a' b, In a l -> In a' l -> P a b -> P a' b -> a = a') -> NoDup l'.
Proof.
  intro H. induction H as [|a b l l' Hab H IH]; intros N Inj; [constructor|]. inversion N; subst. constructor.
  - intro I. assert (exists a', In a' l /\ P a' b) as [a' [I' P']].
    { clear - H I. induction H as [|x y l l' Q H IH]; [destruct I|]. destruct I as [<-|I].
      - exists x. split; [left; reflexivity|exact Q].
      - destruct (IH I) as [z [Z1 Z2]]. exists z. split; [right; exact Z1|exact Z2]. }
    assert (a = a') by (apply (Inj a a' b); simpl; auto). subst. contradiction.
  - apply IH; [assumption|]. intros x x' y X X' Q Q'. apply (Inj x x' y); simpl; auto.
Qed.
Lemma F2_length {A B} (P : A -> B -> Prop) l l' : Forall2 P l l' -> length l = length l'.
Proof. intro H. induction H; simpl; auto. Qed.
Lemma F2_in {A B} (P : A -> B -> Prop) l l' b : Forall2 P l l' -> In b l' -> exists a, In a l /\ P a b.
Proof.
  intro H. induction H as [|x y l l' Q H IH]; intro I; [destruct I|]. destruct I as [<-|I].
  - exists x. split; [left; reflexivity|exact Q].
  - destruct (IH I) as [z [Z1 Z2]]. exists z. split; [right; exact Z1|exact Z2].
Qed.
Lemma F2_nth {A B} (P : A -> B -> Prop) l l' k b : Forall2 P l l' -> nth_error l' k = Some b ->
  exists a, nth_error l k = Some a /\ P a b.
Proof.
  intro H. revert k. induction H as [|x y l l' Q H IH]; intros [|k] E; try discriminate E.
  - injection E as <-. exists x. split; [reflexivity|exact Q].
  - apply IH. exact E.
Qed.

Lemma F2_nth_l {A B} (P : A -> B -> Prop) l l' k a : Forall2 P l l' -> nth_error l k = Some a ->
  exists b, nth_error l' k = Some b /\ P a b.
Proof.
  intro H. revert k. induction H as [|x y l l' Q H IH]; intros [|k] E; try discriminate E.
  - injection E as <-. exists y. split; [reflexivity|exact Q].
  - apply IH. exact E.
Qed.
Lemma F2_of_nth {A B} (P : A -> B -> Prop) l l' : length l = length l' ->
  (forall j a b, nth_error l j = Some a -> nth_error l' j = Some b -> P a b) -> Forall2 P l l'.
Proof.
  revert l'. induction l as [|a l IH]; intros [|b l'] L H; try discriminate L; constructor.
  - apply (H 0%nat); reflexivity.
  - apply IH; [simpl in L; lia|]. intros j. apply (H (S j)).
Qed.

Lemma cell_length m n p x k : in_cell m n p x k -> length k = m.
Proof. intros [H _]. exact H. Qed.

Section Cubes.
Context (m : nat) (n : Z) (r : R) (p : nat -> R -> R) (Y : list (list R)) (cells : list (list Z)) (opens : list (list nat)) (K : nat).
Hypothesis C : cubes_of m n r p Y cells opens.
Hypothesis HK : 2 * r <= INR K.

Lemma cubes_nodup : sets_nodup opens.
Proof.
  destruct C as [_ H]. unfold sets_nodup. clear C. induction H as [|k s l l' [_ [N _]] H IH]; constructor; auto.
Qed.
Lemma cube_at j s : nth_error opens j = Some s -> exists k, nth_error cells j = Some k /\ length k = m /\ cube_ids m r p Y k s.
Proof.
  intro E. destruct C as [_ H]. destruct (F2_nth _ _ _ _ _ H E) as [k [K1 [[x [_ K2]] K3]]].
  exists k. split; [exact K1|]. split; [exact (cell_length _ _ _ _ _ K2)|exact K3].
Qed.
Lemma cell_pos j j' k : nth_error cells j = Some k -> nth_error cells j' = Some k -> j = j'.
Proof.
  intros H H'. destruct C as [N _]. rewrite NoDup_nth_error in N. apply N; [|congruence].
  apply nth_error_Some. congruence.
Qed.

Lemma sets_count i js : sets_with opens i js -> (length js <= K ^ m)%nat.
Proof.
  intros [N H].
  destruct (choose (fun j k => nth_error cells j = Some k /\ exists s, nth_error opens j = Some s /\ In i s) js) as [ks F].
  { intros j I. destruct (H j I) as [s [S1 S2]]. destruct (cube_at j s S1) as [k [K1 _]]. exists k. eauto. }
  rewrite (F2_length _ _ _ F). destruct js as [|j0 js].
  { inversion F; subst. simpl. lia. }
  destruct (H j0) as [s0 [S1 S2]]; [left; reflexivity|]. destruct (cube_at j0 s0 S1) as [k0 [_ [_ [_ Q0]]]].
  apply Q0 in S2. destruct S2 as [x [X1 _]].
  apply (cube_count m r p K x); [exact HK| |].
  - apply (choice_nodup _ _ _ F N). intros a a' b _ _ [A _] [A' _]. exact (cell_pos a a' b A A').
  - intros c I. destruct (F2_in _ _ _ _ F I) as [j [_ [J1 [s [J2 J3]]]]]. destruct (cube_at j s J2) as [k [K1 [K2 [_ K3]]]].
    assert (k = c) by congruence. subst k. split; [exact K2|]. apply K3 in J3. destruct J3 as [x' [X2 X3]].
    assert (x' = x) by congruence. subst. exact X3.
Qed.

Context {T : Type} (X : list T) (clust : clustering T).

Lemma cluster_set k l i : in_cluster X opens clust k l i -> exists s, nth_error opens k = Some s /\ In i s.
Proof.
  intros [_ [ids [lbls [j [[E _] [I _]]]]]]. exists ids. split; [exact E|]. exact (nth_error_In _ _ I).
Qed.
Lemma labels_count out i lbls g : stops g = None -> yields g = opens -> mapper_labels X g clust = Ok out ->
  nth_error out i = Some lbls -> (length lbls <= K ^ m)%nat.
Proof.
  intros _ Yg H E. pose proof cubes_nodup as N.
  assert (Asc : StronglySorted Z.lt lbls).
  { assert (A : Forall (StronglySorted Z.lt) out) by (eapply labels_ascending; [exact H|rewrite Yg; exact N]).
    rewrite Forall_forall in A. apply A. exact (nth_error_In _ _ E). }
  assert (Nl : NoDup lbls).
  { clear - Asc. induction Asc as [|a l Asc IH H]; constructor; [|exact IH]. intro I. rewrite Forall_forall in H. specialize (H a I). lia. }
  destruct (labels_are_clusters X g clust out H) as [_ [name [Nm Hl]]]. rewrite Yg in *.
  destruct (choose (fun z k => exists l, in_cluster X opens clust k l i /\ z = name k l) lbls) as [ks F].
  { intros z I. apply (Hl i lbls E z) in I. destruct I as [k [l I]]. exists k, l. exact I. }
  rewrite (F2_length _ _ _ F). apply (sets_count i). split.
  - apply (choice_nodup _ _ _ F Nl). intros a a' b _ _ [l [A1 ->]] [l' [A2 ->]].
    f_equal. exact (same_set_not_adjacent X (mkgen opens None) clust N b l l' i A1 A2).
  - intros k I. destruct (F2_in _ _ _ _ F I) as [z [_ [l [Q _]]]]. exact (cluster_set k l i Q).
Qed.

Lemma edges_near g gr : yields g = opens -> mapper_graph X g clust = Ok gr ->
  well_formed gr /\ exists name, names_clusters X opens clust name /\
    (forall z, has_node gr z <-> exists k l, is_cluster X opens clust k l /\ z = name k l) /\
    forall a b, adjacent gr a b -> exists k l k' l' c c',
      is_cluster X opens clust k l /\ is_cluster X opens clust k' l' /\ a = name k l /\ b = name k' l' /\
      nth_error cells k = Some c /\ nth_error cells k' = Some c' /\ length c = m /\ length c' = m /\ c <> c' /\ near m K c c'.
Proof.
  intros Yg H. pose proof cubes_nodup as N.
  assert (N' : sets_nodup (yields g)) by (rewrite Yg; exact N).
  destruct (graph_nodes_are_clusters X g clust gr H N') as [W [name [Nm [Hn Ha]]]].
  pose proof (graph_edges_share_points X g clust gr H N') as He. rewrite Yg in *.
  split; [exact W|]. exists name. split; [exact Nm|]. split; [exact Hn|]. intros a b Ab. apply He in Ab.
  destruct Ab as [D [na [ia [nb [ib [i [A1 [B1 [Ia Ib]]]]]]]]].
  assert (Node : forall z s ids, node_attr gr z s ids -> In i ids -> exists k l, in_cluster X opens clust k l i /\ z = name k l).
  { intros z s ids Hz I. assert (Hz' : has_node gr z) by (apply in_map_iff; exists (z, (s, ids)); split; [reflexivity|exact Hz]).
    apply Hn in Hz'. destruct Hz' as [k [l [Cl ->]]]. exists k, l. split; [|reflexivity].
    destruct (Ha k l Cl) as [ids' [B [_ Q]]]. apply Q.
    assert (E : (s, ids) = (length ids', ids')).
    { destruct W as [Nd _]. clear - Nd Hz B. unfold node_attr in *. induction (g_nodes gr) as [|[y v] t IH]; [destruct Hz|].
      simpl in Nd. inversion Nd; subst. destruct Hz as [Hz|Hz], B as [B|B].
      - congruence.
      - injection Hz as -> ->. exfalso. apply H1. apply in_map_iff. eexists; split; [|exact B]. reflexivity.
      - injection B as -> ->. exfalso. apply H1. apply in_map_iff. eexists; split; [|exact Hz]. reflexivity.
      - auto. }
    injection E as _ ->. exact I. }
  destruct (Node a na ia A1 Ia) as [k [l [C1 ->]]]. destruct (Node b nb ib B1 Ib) as [k' [l' [C2 ->]]].
  destruct (cluster_set k l i C1) as [s [S1 S2]]. destruct (cluster_set k' l' i C2) as [s' [S1' S2']].
  destruct (cube_at k s S1) as [c [K1 [L1 [_ Q1]]]]. destruct (cube_at k' s' S1') as [c' [K2 [L2 [_ Q2]]]].
  exists k, l, k', l', c, c'. split; [exists i; exact C1|]. split; [exists i; exact C2|].
  do 6 (split; [first [reflexivity|assumption]|]). split.
  - intros ->. assert (k = k') by exact (cell_pos k k' c' K1 K2). subst k'. apply D. f_equal.
    exact (same_set_not_adjacent X (mkgen opens None) clust N k l l' i C1 C2).
  - apply Q1 in S2. apply Q2 in S2'. destruct S2 as [x [X1 X2]]. destruct S2' as [x' [X1' X2']].
    assert (x' = x) by congruence. subst x'. exact (cubes_near m r p K x c c' HK X2 X2').
Qed.

Lemma degree_count g gr : 0 < r -> yields g = opens -> mapper_graph X g clust = Ok gr ->
  (forall k l l', is_cluster X opens clust k l -> is_cluster X opens clust k l' -> l = l') ->
  forall a nb, In (a, nb) (g_adj gr) -> (S (length nb) <= (2 * K - 1) ^ m)%nat.
Proof.
  intros Pr Yg H One a nb I. destruct (edges_near g gr Yg H) as [W [name [[_ Nm] [Hn He]]]].
  assert (K1 : (1 <= K)%nat).
  { destruct K; [simpl in HK; lra|lia]. }
  assert (Nn : NoDup nb) by (destruct W as [_ [_ W]]; exact (W a nb I)).
  destruct nb as [|b0 nb0].
  { simpl length. rewrite <- (Nat.pow_1_l m) at 1. apply Nat.pow_le_mono_l. lia. }
  set (nb := b0 :: nb0) in *.
  destruct (He a b0) as [k [l [k0 [l0 [c [c0 [Ca [_ [Ea [_ [Kc [_ [Lc _]]]]]]]]]]]]].
  { exists nb. split; [exact I|left; reflexivity]. }
  destruct (choose (fun b c' => exists k' l', is_cluster X opens clust k' l' /\ b = name k' l' /\ nth_error cells k' = Some c' /\
    length c' = m /\ c <> c' /\ near m K c c') nb) as [cs F].
  { intros b Ib. destruct (He a b) as [k1 [l1 [k' [l' [c1 [c' [C1 [C2 [E1 [E2 [Q1 [Q2 [L1 [L2 [Q3 Q4]]]]]]]]]]]]]]].
    { exists nb. split; assumption. }
    assert (k = k1 /\ l = l1) as [<- <-] by (apply Nm; [exact Ca|exact C1|congruence]).
    assert (c1 = c) by congruence. subst c1. exists c', k', l'. repeat (split; [assumption|]). assumption. }
  rewrite (F2_length _ _ _ F). change (S (length cs)) with (length (c :: cs)). apply (near_count m K c).
  - constructor.
    + intro Ic. destruct (F2_in _ _ _ _ F Ic) as [b [_ [k' [l' [_ [_ [_ [_ [Q _]]]]]]]]]. apply Q. reflexivity.
    + apply (choice_nodup _ _ _ F Nn). intros b b' c' _ _ [k1 [l1 [C1 [-> [Q1 _]]]]] [k2 [l2 [C2 [-> [Q2 _]]]]].
      assert (k1 = k2) by exact (cell_pos k1 k2 c' Q1 Q2). subst k2. f_equal. exact (One k1 l1 l2 C1 C2).
  - intros c' [<-|Ic].
    + split; [exact Lc|]. intros j _. rewrite Z.sub_diag. simpl. lia.
    + destruct (F2_in _ _ _ _ F Ic) as [b [_ [k' [l' [_ [_ [_ [L [_ Q]]]]]]]]]. split; assumption.
Qed.
End Cubes.
