(** Counting balls whose members and centers are only known up to rounding. *)
From Coq Require Import String Reals Lra Lia Sorted.
From Flocq Require Import Core BinarySingleNaN.
From Verif Require Import Base BaseFacts ModelCore SpecCore SpecNet ModelVPTree ModelArith ModelCover SpecMetric SpecMetrics ModelMetrics MetricProp
  SpecCubical SpecOverlap OverlapFacts SpecPacking PackingFacts CoreProp ModelFloat SpecDouble FloatCover FloatNamed.
Open Scope R_scope.

(** *** Centers at least [s] apart in a box of half side [w] *)
Lemma near_range N t u : 0 < u -> Rabs t < u -> 2 * u <= INR N -> (0 <= up (t + u) - 1 < 0 + Z.of_nat N)%Z.
Proof.
  intros Hu Ht HN. apply Rabs_def2 in Ht. destruct (archimed (t + u)) as [A1 A2]. split.
  - assert (0 < IZR (up (t + u))) by lra. apply lt_IZR in H. lia.
  - assert (IZR (up (t + u) - 1) < IZR (Z.of_nat N)) by (rewrite minus_IZR, <- INR_IZR_INZ; lra). apply lt_IZR in H. lia.
Qed.

Lemma packing_slack m K N d s w (z : list R) (cs : list (list R)) : comparable m K d -> 0 < s -> 0 < w -> (1 <= K)%nat ->
  2 * w * INR K <= INR N * s ->
  NoDup cs -> (forall c, In c cs -> length c = m /\ forall j, (j < m)%nat -> Rabs (coord c j - coord z j) < w) ->
  (forall c c', In c cs -> In c' cs -> c <> c' -> s <= d c c') ->
  (length cs <= N ^ m)%nat.
Proof.
  intros HC Hs Hw HK HN Nd Hb Sep. assert (PK : 1 <= INR K) by (apply (le_INR 1), HK).
  set (q := INR K / s). assert (Pq : 0 < q) by (apply Rdiv_lt_0_compat; lra).
  assert (Es : s * q = INR K) by (unfold q; field; lra).
  set (sl := fun c j => (up ((coord c j - coord z j) * q + w * q) - 1)%Z).
  set (cell := fun c => map (sl c) (seq 0 m)).
  assert (Nth : forall c j, (j < m)%nat -> nth j (cell c) 0%Z = sl c j).
  { intros c j Hj. unfold cell. rewrite nth_indep with (d' := sl c 0%nat) by (rewrite map_length, seq_length; exact Hj).
    rewrite map_nth, seq_nth by exact Hj. reflexivity. }
  rewrite <- (map_length cell cs). apply (count_boxes N m (fun _ => 0%Z)).
  - assert (Inj : forall c c', In c cs -> In c' cs -> cell c = cell c' -> c = c').
    { intros c c' I I' E. destruct (list_eq_dec Req_EM_T c c') as [Q|Q]; [exact Q|]. exfalso.
      destruct (Hb c I) as [L1 _], (Hb c' I') as [L2 _]. pose proof (Sep c c' I I' Q) as S1.
      assert (S2 : d c c' < INR K * (s / INR K)).
      { apply (proj2 (HC c c' L1 L2)); [apply Rdiv_lt_0_compat; lra|]. intros j Hj.
        assert (Ej : sl c j = sl c' j) by (rewrite <- !Nth by exact Hj; rewrite E; reflexivity). unfold sl in Ej.
        destruct (archimed ((coord c j - coord z j) * q + w * q)) as [A1 A2]. destruct (archimed ((coord c' j - coord z j) * q + w * q)) as [B1 B2].
        assert (Eu : up ((coord c j - coord z j) * q + w * q) = up ((coord c' j - coord z j) * q + w * q)) by lia. rewrite Eu in A1, A2.
        apply (Rmult_lt_reg_r q); [exact Pq|]. replace (s / INR K * q) with 1 by (unfold q; field; lra).
        rewrite <- (Rabs_right q) at 1 by lra. rewrite <- Rabs_mult. apply Rabs_def1; lra. }
      replace (INR K * (s / INR K)) with s in S2 by (field; lra). lra. }
    clear - Nd Inj. induction Nd as [|c cs Nc N0 IH]; [constructor|]. simpl. constructor.
    + intro I. apply in_map_iff in I. destruct I as [c' [E I]]. apply Nc. rewrite (Inj c c'); auto; [left; reflexivity|right; exact I].
    + apply IH. intros a b Ia Ib. apply Inj; right; assumption.
  - intros k I. apply in_map_iff in I. destruct I as [c [<- I]]. destruct (Hb c I) as [_ B]. split; [unfold cell; rewrite map_length; apply seq_length|].
    intros j Hj. rewrite Nth by exact Hj. unfold sl. apply near_range.
    + apply Rmult_lt_0_compat; assumption.
    + rewrite Rabs_mult, (Rabs_right q) by lra. apply Rmult_lt_compat_r; [exact Pq|exact (B j Hj)].
    + apply (Rmult_le_reg_r s); [exact Hs|]. replace (2 * (w * q) * s) with (2 * w * (s * q)) by ring. rewrite Es. exact HN.
Qed.

Section Slack.
Variables (m K : nat) (d : list R -> list R -> R) (s w : R) (Y : list (list R)) (centers : list nat) (opens : list (list nat)).
Hypothesis HC : comparable m K d.
Hypothesis Hs : 0 < s.
Hypothesis Hw : 0 < w.
Hypothesis HK : (1 <= K)%nat.
Hypothesis HY : Forall (fun y => length y = m) Y.
Hypothesis Hc : NoDup centers.
Hypothesis HF : Forall2 (fun i o => exists x, nth_error Y i = Some x /\ NoDup o /\
                   forall j, In j o -> exists y, nth_error Y j = Some y /\ d x y < w) centers opens.
Hypothesis Sep : forall a b x y, In a centers -> In b centers -> a <> b -> nth_error Y a = Some x -> nth_error Y b = Some y -> s <= d x y.

Lemma slack_nodup : sets_nodup opens.
Proof.
  unfold sets_nodup. revert HF. clear. intro F. induction F as [|i o l l' [x [_ [N _]]] F IH]; constructor; assumption.
Qed.
Let at_ (k : nat) (c : list R) : Prop := exists i, nth_error centers k = Some i /\ nth_error Y i = Some c.
Lemma slack_row i x : nth_error Y i = Some x -> length x = m.
Proof. intro E. rewrite Forall_forall in HY. apply HY. exact (nth_error_In _ _ E). Qed.
Lemma slack_apart k k' c c' : at_ k c -> at_ k' c' -> k <> k' -> s <= d c c'.
Proof.
  intros [i [A1 A2]] [i' [B1 B2]] D. apply (Sep i i'); auto; try (eapply nth_error_In; eassumption). intros <-. apply D.
  apply (proj1 (NoDup_nth_error centers) Hc); [exact (nth_error_lt _ _ _ A1)|congruence].
Qed.
Lemma slack_same k k' c : at_ k c -> at_ k' c -> k = k'.
Proof.
  intros A B. destruct (Nat.eq_dec k k') as [E|D]; [exact E|]. exfalso. pose proof (slack_apart k k' c c A B D) as Q.
  assert (L : length c = m) by (destruct A as [i [_ A]]; exact (slack_row i c A)).
  assert (Q' : d c c < INR K * (s / INR K)).
  { assert (P : 1 <= INR K) by (apply (le_INR 1), HK). apply (proj2 (HC c c L L)); [apply Rdiv_lt_0_compat; lra|]. intros j _.
    rewrite Rminus_diag_eq by reflexivity. rewrite Rabs_R0. apply Rdiv_lt_0_compat; lra. }
  assert (P : INR K <> 0) by (apply not_0_INR; lia). replace (INR K * (s / INR K)) with s in Q' by (field; exact P). lra.
Qed.
Lemma slack_center k o i : nth_error opens k = Some o -> In i o -> exists c x, at_ k c /\ nth_error Y i = Some x /\ length x = m /\
  forall j, (j < m)%nat -> Rabs (coord c j - coord x j) < w.
Proof.
  intros E I. destruct (F2_nth _ _ _ _ _ HF E) as [a [Ea [x [Ex [_ Q]]]]]. apply Q in I. destruct I as [y [Ey D]].
  exists x, y. split; [exists a; split; assumption|]. split; [exact Ey|]. split; [exact (slack_row i y Ey)|].
  intros j Hj. eapply Rle_lt_trans; [|exact D]. apply (proj1 (HC x y (slack_row a x Ex) (slack_row i y Ey))). exact Hj.
Qed.
Lemma slack_near N v z ks : 0 < v -> 2 * v * INR K <= INR N * s -> NoDup ks ->
  (forall k, In k ks -> exists c, at_ k c /\ forall j, (j < m)%nat -> Rabs (coord c j - coord z j) < v) ->
  (length ks <= N ^ m)%nat.
Proof.
  intros Hv HN Nk H. destruct (choose (fun k c => at_ k c /\ forall j, (j < m)%nat -> Rabs (coord c j - coord z j) < v) ks H) as [cs F].
  rewrite (F2_length _ _ _ F). apply (packing_slack m K N d s v z cs); auto.
  - apply (choice_nodup _ _ _ F Nk). intros k k' c _ _ [A _] [B _]. exact (slack_same k k' c A B).
  - intros c I. destruct (F2_in _ _ _ _ F I) as [k [_ [[i [_ A]] B]]]. split; [exact (slack_row i c A)|exact B].
  - intros c c' I I' D. destruct (F2_in _ _ _ _ F I) as [k [_ [A _]]]. destruct (F2_in _ _ _ _ F I') as [k' [_ [A' _]]].
    apply (slack_apart k k'); auto. intros <-. apply D. destruct A as [i [A1 A2]], A' as [i' [A1' A2']]. congruence.
Qed.

Lemma slack_count N i js : 2 * w * INR K <= INR N * s -> sets_with opens i js -> (length js <= N ^ m)%nat.
Proof.
  intros HN [Nj H]. destruct js as [|j0 js0]; [simpl; apply Nat.le_0_l|]. set (js := j0 :: js0) in *.
  destruct (H j0 (or_introl eq_refl)) as [o0 [E0 I0]]. destruct (slack_center j0 o0 i E0 I0) as [c0 [x [_ [Ex [Lx _]]]]].
  apply (slack_near N w x js Hw HN Nj). intros k Ik. destruct (H k Ik) as [o [E I]].
  destruct (slack_center k o i E I) as [c [x' [C [Ex' [_ D]]]]]. assert (x' = x) by congruence. subst x'. exists c. split; assumption.
Qed.

Lemma slack_degree {T} N (X : list T) clust g gr : 4 * w * INR K <= INR N * s -> yields g = opens -> mapper_graph X g clust = Ok gr ->
  (forall k l l', is_cluster X opens clust k l -> is_cluster X opens clust k l' -> l = l') ->
  forall a nb, In (a, nb) (g_adj gr) -> (S (length nb) <= N ^ m)%nat.
Proof.
  intros HN Yg H One a nb I. destruct (edges_meet X clust opens slack_nodup g gr Yg H) as [W [name [[_ Nm] [Hn He]]]].
  assert (Nn : NoDup nb) by (destruct W as [_ [_ W]]; exact (W a nb I)).
  assert (N1 : (1 <= N)%nat).
  { destruct N; [exfalso|lia]. simpl in HN. assert (1 <= INR K) by (apply (le_INR 1), HK).
    assert (0 < 4 * w * INR K) by (apply Rmult_lt_0_compat; lra). lra. }
  destruct nb as [|b0 nb0].
  { simpl length. rewrite <- (Nat.pow_1_l m) at 1. apply Nat.pow_le_mono_l. lia. }
  set (nb := b0 :: nb0) in *.
  destruct (He a b0) as [k [l [k0 [l0 [i0 [Ca [_ [Ea _]]]]]]]]; [exists nb; split; [exact I|left; reflexivity]|].
  assert (exists c, at_ k c) as [c Cc].
  { destruct (cluster_set opens X clust k l i0 Ca) as [o [S1 S2]]. destruct (slack_center k o i0 S1 S2) as [c [x [C _]]]. exists c. exact C. }
  destruct (choose (fun b k' => exists l' c', is_cluster X opens clust k' l' /\ b = name k' l' /\ k <> k' /\ at_ k' c' /\
    forall j, (j < m)%nat -> Rabs (coord c' j - coord c j) < 2 * w) nb) as [ks F].
  { intros b Ib. destruct (He a b) as [k1 [l1 [k' [l' [i [C1 [C2 [E1 [E2 D]]]]]]]]]; [exists nb; split; assumption|].
    assert (k = k1 /\ l = l1) as [<- <-] by (apply Nm; [exists i0; exact Ca|exists i; exact C1|congruence]).
    destruct (cluster_set opens X clust k l i C1) as [o [S1 S2]]. destruct (cluster_set opens X clust k' l' i C2) as [o' [S1' S2']].
    destruct (slack_center k o i S1 S2) as [c1 [x [Q1 [Q2 [Q3 Q4]]]]]. destruct (slack_center k' o' i S1' S2') as [c' [x' [Q1' [Q2' [_ Q4']]]]].
    assert (x' = x) by congruence. subst x'.
    assert (c1 = c) by (destruct Q1 as [i1 [U1 U2]], Cc as [i2 [V1 V2]]; congruence). subst c1.
    exists k', l', c'. split; [exists i; exact C2|]. split; [exact E2|]. split; [exact D|]. split; [exact Q1'|]. intros j Hj.
    pose proof (Q4 j Hj) as R1. pose proof (Q4' j Hj) as R2.
    apply Rabs_def2 in R1. apply Rabs_def2 in R2. apply Rabs_def1; lra. }
  rewrite (F2_length _ _ _ F). change (S (length ks)) with (length (k :: ks)).
  apply (slack_near N (2 * w) c); [lra|lra| |].
  - constructor.
    + intro Ik. destruct (F2_in _ _ _ _ F Ik) as [b [_ [l' [c' [_ [_ [D _]]]]]]]. apply D. reflexivity.
    + apply (choice_nodup _ _ _ F Nn). intros b b' k' _ _ [l1 [c1 [C1 [-> _]]]] [l2 [c2 [C2 [-> _]]]]. f_equal. exact (One k' l1 l2 C1 C2).
  - intros k' [<-|Ik].
    + exists c. split; [exact Cc|]. intros j _. rewrite Rminus_diag_eq by reflexivity. rewrite Rabs_R0. lra.
    + destruct (F2_in _ _ _ _ F Ik) as [b [_ [l' [c' [_ [_ [_ [C Q]]]]]]]]. exists c'. split; assumption.
Qed.
End Slack.

(** *** The balls of a cover computed in double precision *)
Lemma named_comparable name m K (D : list R -> list R -> R) :
  In (name, K) [("chebyshev"%string, 1%nat); ("euclidean"%string, S (Nat.sqrt (m - 1))); ("manhattan"%string, m)] -> (1 <= m)%nat ->
  get_metric RA sqrt (Name name) [] = Ok (total_fn RA D) -> (1 <= K)%nat /\ comparable m K D.
Proof.
  intros Hn Hm G.
  assert (Q : forall D' : list R -> list R -> R, get_metric RA sqrt (Name name) [] = Ok (total_fn RA D') -> comparable m K D' -> comparable m K D).
  { intros D' G' C x y Lx Ly. rewrite G in G'. injection G' as G'.
    assert (E : D x y = D' x y) by (assert (H := f_equal (fun f => f x y) G'); injection H as H; exact H). rewrite E. exact (C x y Lx Ly). }
  destruct Hn as [E|[E|[E|[]]]]; injection E as <- <-.
  - split; [lia|]. apply (Q _ eq_refl). apply chebyshev_comparable. intros x y Lx Ly. apply chebyshev_doc. congruence.
  - assert (Q2 : (m <= S (Nat.sqrt (m - 1)) * S (Nat.sqrt (m - 1)))%nat).
    { destruct (Nat.sqrt_spec (m - 1) (Nat.le_0_l _)) as [_ Q2]. lia. }
    split; [lia|]. apply (Q _ eq_refl). apply euclidean_comparable; [exact Q2|lia|]. intros x y _ _. apply euclidean_doc.
  - split; [lia|]. apply (Q _ eq_refl). apply manhattan_comparable; [lia|lia|]. intros x y _ _. apply manhattan_doc.
Qed.

Section Double.
Variables (m : nat) (d : list b64 -> list b64 -> b64) (D : list R -> list R -> R) (r B : R) (X : list (list b64)) (centers : list nat) (opens : list (list nat)).
Hypothesis HM : @metric_on (list R) (dim m) D.
Hypothesis HX : Forall (moderate m) X.
Hypothesis Hs : StronglySorted lt centers.
Hypothesis HF : Forall2 (fun i s => exists x, nth_error X i = Some x /\ In i s /\ ball_of m d D r X x s) centers opens.
Hypothesis Hlate : forall k k' i s, (k' < k)%nat -> nth_error centers k = Some i -> nth_error opens k' = Some s -> ~ In i s.
Hypothesis HB : forall a b, In a X -> In b X -> D (reals a) (reals b) <= B.

Lemma double_dim x : In x X -> dim m (reals x).
Proof. intro I. rewrite Forall_forall in HX. destruct (HX x I) as [L _]. unfold dim, reals. rewrite map_length. exact L. Qed.
Lemma double_rows : Forall (fun y => length y = m) (map reals X).
Proof. rewrite Forall_map. apply Forall_forall. intros x I. exact (double_dim x I). Qed.
Lemma double_bound x : In x X -> forall a b, In a (x :: X) -> In b (x :: X) -> D (reals a) (reals b) <= B.
Proof. intros I a b [<-|Ia] [<-|Ib]; apply HB; assumption. Qed.
Lemma double_balls : Forall2 (fun i o => exists x, nth_error (map reals X) i = Some x /\ NoDup o /\
  forall j, In j o -> exists y, nth_error (map reals X) j = Some y /\ D x y < r + rounding_error m B) centers opens.
Proof.
  assert (Q0 : forall (P Q : nat -> list nat -> Prop) l l', (forall i o, P i o -> Q i o) -> Forall2 P l l' -> Forall2 Q l l').
  { intros P Q l l' H F. induction F; constructor; auto. }
  eapply Q0; [|exact HF]. intros i o [x [Ex [_ [Nd [Hj Q]]]]]. exists (reals x).
  split; [apply map_nth_error, Ex|]. split; [exact Nd|]. intros j Ij. destruct (Hj j Ij) as [y [Ey _]]. exists (reals y).
  split; [apply map_nth_error, Ey|]. exact (proj1 (Q B (double_bound x (nth_error_In _ _ Ex)) j y Ey) Ij).
Qed.
Lemma double_apart a b x y : In a centers -> In b centers -> a <> b -> nth_error (map reals X) a = Some x -> nth_error (map reals X) b = Some y ->
  r - 4 * rounding_error m B <= D x y.
Proof.
  assert (One : forall a b x y k k', (k' < k)%nat -> nth_error centers k = Some a -> nth_error centers k' = Some b ->
    nth_error X a = Some x -> nth_error X b = Some y -> r - 4 * rounding_error m B <= D (reals y) (reals x)).
  { intros a0 b0 x0 y0 k k' L Ek Ek' Ex Ey. destruct (F2_nth_l _ _ _ _ _ HF Ek') as [o [Eo [y1 [Ey1 [_ [_ [_ Q]]]]]]].
    assert (y1 = y0) by congruence. subst y1. destruct (Rlt_le_dec (D (reals y0) (reals x0)) (r - 4 * rounding_error m B)) as [R|R]; [|exact R].
    exfalso. apply (Hlate k k' a0 o L Ek Eo). exact (proj2 (Q B (double_bound y0 (nth_error_In _ _ Ey)) a0 x0 Ex) R). }
  intros Ia Ib Ne Ex Ey. rewrite nth_error_map in Ex, Ey. destruct (nth_error X a) as [x0|] eqn:Ex0; [|discriminate].
  destruct (nth_error X b) as [y0|] eqn:Ey0; [|discriminate]. injection Ex as <-. injection Ey as <-.
  apply In_nth_error in Ia, Ib. destruct Ia as [k Ek], Ib as [k' Ek'].
  destruct (Nat.lt_trichotomy k k') as [L|[L|L]].
  - exact (One b a y0 x0 k' k L Ek' Ek Ey0 Ex0).
  - subst k'. congruence.
  - assert (S : D (reals x0) (reals y0) = D (reals y0) (reals x0)).
    { apply (m_sym _ _ HM); apply double_dim; eapply nth_error_In; eassumption. }
    rewrite S. exact (One a b x0 y0 k k' L Ek Ek' Ex0 Ey0).
Qed.
End Double.
