(** C41 and C43: what the pyvis backend shows (plot_pyvis.py). *)
From Coq Require Import String Reals Lra Lia QArith.
From Verif Require Import Base BaseFacts Dict ModelArith ModelCore SpecCore SpecMetric.
From Verif Require Import ModelDraw SpecPlot DrawFacts DrawProp PyvisProp PropPlot.
Open Scope nat_scope.

(** ** C41: pyvis. One node per node of the graph, in order, at the position of the
    layout scaled to the window; the edges of the graph, each once; colours as
    points of [0, 1] on the scale, in proportion: 0 for the smallest colour, 1 for
    the largest. *)
Theorem C41_pyvis_nodes_edges :
  forall (A : arith) root round_int pinf ninf CS get_colorscale (m : mapper_plot A),
  well_formed (mp_graph m) -> symmetric_graph (mp_graph m) ->
  forall colors node_size agg w h cmap net,
  compute_net A root round_int pinf ninf CS get_colorscale m colors node_size agg w h cmap = Ok net ->
  lists_edges (mp_graph m) (net_edges net) /\ length (net_nodes net) = length (g_nodes (mp_graph m)) /\
  forall i z s ids, nth_error (g_nodes (mp_graph m)) i = Some (z, (s, ids)) ->
    exists v pos x y color, nth_error (net_nodes net) i = Some v /\ pv_id v = z /\
      has_pos m z pos /\ nth_error pos 0 = Some x /\ nth_error pos 1 = Some y /\
      pv_x v = mul A x (ofz A w) /\ pv_y v = mul A (sub A (ofz A 0) y) (ofz A h) /\
      node_color colors agg ids color /\ pv_title v = (color, z, pv_size v) /\
      pv_color v = pv_color_of A (net_cmin net, net_cmax net) color.
Proof.
  intros A root ri pinf ninf CS gc m W Sy colors ns agg w h cmap net H.
  destruct (pyvis_shown A root ri pinf ninf CS gc m W _ _ _ _ _ _ _ H) as [E [L [cs [_ [_ Q]]]]].
  split; [rewrite E; apply edges_listed; assumption|]. split; [exact L|]. intros i z s ids Ei.
  destruct (Q i z s ids Ei) as [v [pos [x [y [color [M [lo [Q1 [Q2 [Q3 [Q4 [Q5 [_ [_ [_ [_ [Q6 [Q7 [Q8 [Q9 [_ [_ Q10]]]]]]]]]]]]]]]]]]]]]].
  exists v, pos, x, y, color. auto 15.
Qed.
Print Assumptions C41_pyvis_nodes_edges.

Theorem C41_pyvis_colors :
  forall CS get_colorscale (m : mapper_plot XA),
  well_formed (mp_graph m) -> g_nodes (mp_graph m) <> [] ->
  forall colors node_size agg w h cmap net,
  compute_net XA xsqrt xround XPos XNeg CS get_colorscale m colors node_size agg w h cmap = Ok net ->
  (forall xs v, agg xs = Ok v -> exists r, v = XFin r) ->
  exists lo hi : R, net_cmin net = XFin lo /\ net_cmax net = XFin hi /\
  forall i z s ids, nth_error (g_nodes (mp_graph m)) i = Some (z, (s, ids)) ->
    exists v (c p : R), nth_error (net_nodes net) i = Some v /\ node_color colors agg ids (XFin c) /\
      (lo <= c <= hi)%R /\ pv_color v = XFin p /\ (0 <= p <= 1)%R /\
      ((lo < hi)%R -> p = ((c - lo) / (hi - lo))%R) /\ (lo = hi -> p = (1 / 2)%R).
Proof.
  intros CS gc m W N colors ns agg w h cmap net H Ha.
  destruct (pyvis_shown XA xsqrt xround XPos XNeg CS gc m W _ _ _ _ _ _ _ H) as [_ [L [cs [Lc [B Q]]]]].
  assert (F : exists l, cs = map XFin l).
  { assert (K : forall k c, nth_error cs k = Some c -> exists r, c = XFin r).
    { intros k c Ek. destruct (nth_error (g_nodes (mp_graph m)) k) as [[z [s ids]]|] eqn:Ez.
      - destruct (Q k z s ids Ez) as [v [pos [x [y [color [M [lo [_ [_ [_ [_ [[xs [_ Q5]] [Q6 _]]]]]]]]]]]]].
        rewrite Ek in Q6. injection Q6 as ->. eauto.
      - apply nth_error_None in Ez. apply nth_error_lt in Ek. lia. }
    clear - K. induction cs as [|c cs IH]; [exists []; reflexivity|].
    destruct IH as [l ->]; [intros k x E; exact (K (S k) x E)|]. destruct (K 0 c eq_refl) as [r ->]. exists (r :: l). reflexivity. }
  destruct F as [l ->]. destruct (color_bounds_ok l) as [lo [hi [B' [_ [_ Hr]]]]].
  { intros ->. rewrite map_length in Lc. destruct (g_nodes (mp_graph m)); [contradiction|discriminate]. }
  rewrite B' in B. injection B as B1 B2. exists lo, hi. split; [exact B1|]. split; [exact B2|]. intros i z s ids Ei.
  destruct (Q i z s ids Ei) as [v [pos [x [y [color [M [lo' [Q1 [_ [_ [_ [Q5 [Q6 [_ [_ [_ [_ [_ [_ [Q9 _]]]]]]]]]]]]]]]]]]]].
  assert (Ic := nth_error_In _ _ Q6). apply in_map_iff in Ic. destruct Ic as [c [<- Ic]].
  destruct (color_point lo hi c (Hr c Ic)) as [p [P1 [P2 [P3 P4]]]]. rewrite B1, B2 in Q9. assert (Q9' := eq_trans Q9 P1).
  exists v, c, p. split; [exact Q1|]. split; [exact Q5|]. split; [exact (Hr c Ic)|]. split; [exact Q9'|]. split; [exact P2|]. split; [exact P3|exact P4].
Qed.
Print Assumptions C41_pyvis_colors.

(** ** C43: when the nodes differ in size, the drawn size of a node with [s] points is
    the integer nearest to node_size * 25 * sqrt (s / M), [M] being the size of the
    largest node. *)
Definition sizes_differ (g : graph) : Prop :=
  exists z s ids z' s' ids', node_attr g z s ids /\ node_attr g z' s' ids' /\ s <> s'.

Lemma finite_size (r : R) (s M : nat) : 0 < M ->
  mul XA (mul XA (XFin r) (ofz XA 25)) (xsqrt (div XA (ofz XA (Z.of_nat s)) (ofz XA (Z.of_nat M)))) =
  XFin (r * 25 * sqrt (INR s / INR M))%R.
Proof.
  intro P. cbn [XA mul ofz div xmul xdiv]. assert (0 < INR M)%R by (apply lt_0_INR; exact P).
  rewrite <- !INR_IZR_INZ. destruct (Req_EM_T (INR M) 0) as [E|_]; [lra|]. cbn [xsqrt].
  assert (Q : (0 <= INR s / INR M)%R) by (apply Rmult_le_pos; [apply pos_INR|left; apply Rinv_0_lt_compat; assumption]).
  destruct (Rltb_spec (INR s / INR M) 0); [lra|]. reflexivity.
Qed.

Lemma drawn_size CS gc (m : mapper_plot XA) (W : well_formed (mp_graph m)) colors (r : R) agg w h cmap net :
  compute_net XA xsqrt xround XPos XNeg CS gc m colors (XFin r) agg w h cmap = Ok net ->
  (forall z s ids, node_attr (mp_graph m) z s ids -> 0 < s) ->
  exists M, forall i z s ids, nth_error (g_nodes (mp_graph m)) i = Some (z, (s, ids)) ->
    exists v, nth_error (net_nodes net) i = Some v /\ largest (mp_graph m) M /\ 0 < M /\
      (sizes_differ (mp_graph m) -> pv_size v = round_even (r * 25 * sqrt (INR s / INR M))) /\
      (~ sizes_differ (mp_graph m) -> pv_size v = 25%Z).
Proof.
  intros H P. destruct (pyvis_shown XA xsqrt xround XPos XNeg CS gc m W _ _ _ _ _ _ _ H) as [_ [L [cs [_ [_ Q]]]]].
  assert (K : exists M, forall i z s ids, nth_error (g_nodes (mp_graph m)) i = Some (z, (s, ids)) -> largest (mp_graph m) M).
  { destruct (g_nodes (mp_graph m)) as [|[z [s ids]] l] eqn:E; [exists 0; intros [|i] z s ids K; discriminate|].
    destruct (Q 0 z s ids eq_refl) as [v [pos [x [y [color [M [lo [_ [_ [_ [_ [_ [_ [Q7 _]]]]]]]]]]]]]]. exists M. auto. }
  destruct K as [M HM]. exists M. intros i z s ids Ei. specialize (HM i z s ids Ei).
  destruct (Q i z s ids Ei) as [v [pos [x [y [color [M' [lo [Q1 [_ [_ [_ [_ [_ [Q7 [Q8 [Q9 [_ [_ [_ [_ [Q10 [Q11 _]]]]]]]]]]]]]]]]]]]]]].
  rewrite (largest_unique _ _ _ Q7 HM) in *. clear Q7 M'. exists v. split; [exact Q1|]. split; [exact HM|].
  assert (PM : 0 < M). { destruct HM as [[z' [i' K]] _]. exact (P _ _ _ K). }
  split; [exact PM|]. destruct (Nat.eq_dec lo M) as [E|E].
  - split; [|intros _; rewrite (Q10 E); cbn; exact (round_even_int 25)].
    intros [z1 [s1 [i1 [z2 [s2 [i2 [A1 [A2 A3]]]]]]]]. exfalso. apply A3. pose proof (Q9 _ _ _ A1). pose proof (Q9 _ _ _ A2).
    pose proof (proj2 HM _ _ _ A1). pose proof (proj2 HM _ _ _ A2). lia.
  - split; [intros _; rewrite (Q11 E), finite_size by exact PM; reflexivity|]. intro D. exfalso. apply D.
    destruct Q8 as [z' [i' K]]. destruct (proj1 HM) as [z2 [i2 K2]]. exists z', lo, i', z2, M, i2. auto.
Qed.

Theorem C43_size_nearest :
  forall CS get_colorscale (m : mapper_plot XA),
  well_formed (mp_graph m) -> (forall z s ids, node_attr (mp_graph m) z s ids -> 0 < s) -> sizes_differ (mp_graph m) ->
  forall colors (r : R) agg w h cmap net,
  compute_net XA xsqrt xround XPos XNeg CS get_colorscale m colors (XFin r) agg w h cmap = Ok net ->
  exists M, largest (mp_graph m) M /\
  forall i z s ids, nth_error (g_nodes (mp_graph m)) i = Some (z, (s, ids)) ->
    exists v, nth_error (net_nodes net) i = Some v /\
      (Rabs (IZR (pv_size v) - r * 25 * sqrt (INR s / INR M)) <= 1 / 2)%R /\
      (s = M -> (Rabs (IZR (pv_size v) - r * 25) <= 1 / 2)%R).
Proof.
  intros CS gc m W P D colors r agg w h cmap net H.
  destruct (drawn_size CS gc m W _ _ _ _ _ _ _ H P) as [M Q]. exists M. split.
  - destruct D as [z [s [ids [_ [_ [_ [K _]]]]]]]. unfold node_attr in K. destruct (In_nth_error _ _ K) as [i Ei].
    destruct (Q i z s ids Ei) as [v [_ [L _]]]. exact L.
  - intros i z s ids Ei. destruct (Q i z s ids Ei) as [v [Q1 [L [PM [Q2 _]]]]]. exists v. split; [exact Q1|]. rewrite (Q2 D).
    split; [apply round_even_near|]. intros ->. 
    replace (INR M / INR M)%R with 1%R by (field; apply not_0_INR; lia). rewrite sqrt_1, Rmult_1_r. apply round_even_near.
Qed.
Print Assumptions C43_size_nearest.

(** ** C43: nodes with more points are not drawn smaller. *)
Theorem C43_size_monotone :
  forall CS get_colorscale (m : mapper_plot XA),
  well_formed (mp_graph m) -> (forall z s ids, node_attr (mp_graph m) z s ids -> 0 < s) ->
  forall colors (r : R) agg w h cmap net, (0 <= r)%R ->
  compute_net XA xsqrt xround XPos XNeg CS get_colorscale m colors (XFin r) agg w h cmap = Ok net ->
  forall i z s ids v j z' s' ids' v',
  nth_error (g_nodes (mp_graph m)) i = Some (z, (s, ids)) -> nth_error (net_nodes net) i = Some v ->
  nth_error (g_nodes (mp_graph m)) j = Some (z', (s', ids')) -> nth_error (net_nodes net) j = Some v' ->
  s <= s' -> (pv_size v <= pv_size v')%Z.
Proof.
  intros CS gc m W P colors r agg w h cmap net Hr H i z s ids v j z' s' ids' v' Ei Ev Ej Ev' Le.
  destruct (drawn_size CS gc m W _ _ _ _ _ _ _ H P) as [M Q].
  destruct (Q i z s ids Ei) as [u [Q1 [HM [PM [Q2 Q3]]]]]. rewrite Ev in Q1. injection Q1 as <-.
  destruct (Q j z' s' ids' Ej) as [u' [R1 [_ [_ [R2 R3]]]]]. rewrite Ev' in R1. injection R1 as <-.
  assert (PR : (0 < INR M)%R) by (apply lt_0_INR; exact PM).
  destruct (Nat.eq_dec s s') as [<-|N].
  - destruct (Z.eq_dec (pv_size v) 25) as [E|E].
    + destruct (Z.eq_dec (pv_size v') 25) as [E'|E']; [lia|]. 
      destruct (Z.le_gt_cases (pv_size v) (pv_size v')) as [?|G]; [assumption|]. exfalso.
      assert (D : ~ ~ sizes_differ (mp_graph m)) by (intro D; apply E'; auto).
      apply D. intro D'. rewrite (Q2 D'), (R2 D') in G. lia.
    + destruct (Z.le_gt_cases (pv_size v) (pv_size v')) as [?|G]; [assumption|]. exfalso.
      assert (D : ~ ~ sizes_differ (mp_graph m)) by (intro D; apply E; auto).
      apply D. intro D'. rewrite (Q2 D'), (R2 D') in G. lia.
  - assert (D : sizes_differ (mp_graph m)).
    { exists z, s, ids, z', s', ids'. split; [eapply nth_error_In; eauto|]. split; [eapply nth_error_In; eauto|exact N]. }
    rewrite (Q2 D), (R2 D). apply round_even_mono. apply Rmult_le_compat_l; [lra|].
    apply sqrt_le_1_alt. unfold Rdiv. apply Rmult_le_compat_r; [left; apply Rinv_0_lt_compat; exact PR|apply le_INR; exact Le].
Qed.
Print Assumptions C43_size_monotone.

(** ** C43: when all nodes have the same size, they are drawn with size 25 whatever
    node_size is. *)
Theorem C43_equal_sizes_ignore_node_size :
  forall CS get_colorscale (m : mapper_plot XA),
  well_formed (mp_graph m) -> (forall z s ids, node_attr (mp_graph m) z s ids -> 0 < s) -> ~ sizes_differ (mp_graph m) ->
  forall colors (r : R) agg w h cmap net,
  compute_net XA xsqrt xround XPos XNeg CS get_colorscale m colors (XFin r) agg w h cmap = Ok net ->
  forall i z a, nth_error (g_nodes (mp_graph m)) i = Some (z, a) ->
  exists v, nth_error (net_nodes net) i = Some v /\ pv_size v = 25%Z.
Proof.
  intros CS gc m W P D colors r agg w h cmap net H i z [s ids] Ei.
  destruct (drawn_size CS gc m W _ _ _ _ _ _ _ H P) as [M Q]. destruct (Q i z s ids Ei) as [v [Q1 [_ [_ [_ Q3]]]]]. eauto.
Qed.
Print Assumptions C43_equal_sizes_ignore_node_size.

(** ** Example: five nodes, the first with two points, the others with one; node_size 2. *)
Definition xfirst (l : list xr) : res xr := match l with x :: _ => Ok x | [] => Err ValueError end.
Definition xplot : mapper_plot XA :=
  mkplot (A := XA) demo_graph 2 (map (fun n => (n, [XFin (IZR n); XFin 1])) (nodes demo_graph)).
Definition xcolors : list xr := map (fun z => XFin (IZR z)) [10; 20; 30; 40; 50]%Z.
Lemma xplot_wf : well_formed (mp_graph xplot).
Proof. exact (proj1 (C41_mapper_graphs_drawable _ _ _ _ _ C41_demo_graph_is_mapper)). Qed.
Lemma xplot_positive : forall z s ids, node_attr (mp_graph xplot) z s ids -> 0 < s.
Proof. intros z s ids K. exact (proj1 (proj2 (proj2 (proj2 (C41_mapper_graphs_drawable _ _ _ _ _ C41_demo_graph_is_mapper))) z s ids K)). Qed.
Example C43_demo_sizes :
  exists net, compute_net XA xsqrt xround XPos XNeg string (fun s => Ok s) xplot xcolors (XFin 2) xfirst 10 10 "jet" = Ok net /\
    map pv_size (net_nodes net) = [50; 35; 35; 35; 35]%Z.
Proof.
  destruct (compute_net XA xsqrt xround XPos XNeg string (fun s => Ok s) xplot xcolors (XFin 2) xfirst 10 10 "jet") as [net|e] eqn:E.
  2: { exfalso. discriminate. }
  exists net. split; [reflexivity|].
  assert (D : sizes_differ (mp_graph xplot)). { exists 0%Z, 2, [0; 2], 4%Z, 1, [0]. split; [left; reflexivity|]. split; [right; left; reflexivity|discriminate]. }
  pose proof (pyvis_shown XA xsqrt xround XPos XNeg string _ xplot xplot_wf _ _ _ _ _ _ _ E) as [_ [L _]].
  destruct (drawn_size string (fun s => Ok s) xplot xplot_wf _ _ _ _ _ _ _ E xplot_positive) as [M Q].
  assert (HM : M = 2).
  { destruct (Q 0 0%Z 2 [0; 2] eq_refl) as [v [_ [HM _]]]. apply (largest_unique _ _ _ HM). split; [exists 0%Z, [0; 2]; left; reflexivity|].
    intros z s ids K. cbn in K. repeat (destruct K as [K|K]; [injection K as <- <- <-; lia|]). destruct K. }
  subst M.
  assert (R2 : round_even (2 * 25 * sqrt (INR 2 / INR 2)) = 50%Z).
  { replace (INR 2 / INR 2)%R with 1%R by (simpl; field). rewrite sqrt_1. replace (2 * 25 * 1)%R with (IZR 50) by lra. apply round_even_int. }
  assert (R1 : round_even (2 * 25 * sqrt (INR 1 / INR 2)) = 35%Z).
  { replace (INR 1 / INR 2)%R with (1 / 2)%R by (simpl; lra). set (q := sqrt (1 / 2)).
    assert (S1 : (q * q = 1 / 2)%R) by (unfold q; apply sqrt_sqrt; lra). assert (S0 : (0 <= q)%R) by (unfold q; apply sqrt_pos).
    assert (B : (70 / 100 < q < 71 / 100)%R) by (split; apply Rnot_le_lt; intro; nra).
    pose proof (round_even_near (2 * 25 * q)) as Nr. assert (Nr' : (-(1/2) <= IZR (round_even (2 * 25 * q)) - 2 * 25 * q <= 1/2)%R) by (unfold Rabs in Nr; destruct (Rcase_abs _) in Nr; lra).
    assert (B1 : (34 < round_even (2 * 25 * q))%Z) by (apply lt_IZR; clear - Nr' B; lra). assert (B2 : (round_even (2 * 25 * q) < 37)%Z) by (apply lt_IZR; clear - Nr' B; lra).
    assert (B3 : (round_even (2 * 25 * q) <> 36)%Z). { intro K. rewrite K in Nr'. lra. } lia. }
  destruct (Q 0 0%Z 2 [0; 2] eq_refl) as [v0 [V0 [_ [_ [S0 _]]]]]. destruct (Q 1 4%Z 1 [0] eq_refl) as [v1 [V1 [_ [_ [S1 _]]]]].
  destruct (Q 2 1%Z 1 [1] eq_refl) as [v2 [V2 [_ [_ [S2 _]]]]]. destruct (Q 3 2%Z 1 [2] eq_refl) as [v3 [V3 [_ [_ [S3 _]]]]].
  destruct (Q 4 3%Z 1 [3] eq_refl) as [v4 [V4 [_ [_ [S4 _]]]]].
  specialize (S0 D). specialize (S1 D). specialize (S2 D). specialize (S3 D). specialize (S4 D).
  destruct (net_nodes net) as [|a [|b [|c [|d [|e l]]]]]; try discriminate. cbn in V0, V1, V2, V3, V4. injection V0 as <-. injection V1 as <-.
  injection V2 as <-. injection V3 as <-. injection V4 as <-. destruct l; [|discriminate]. cbn [map]. rewrite S0, S1, S2, S3, S4, R1, R2. reflexivity.
Qed.

(** ** C43: false when all nodes have the same size: doubling node_size does not
    change the drawn size, and the tooltip shows the drawn size, 25, as the number
    of points. *)
Definition equal_plot : mapper_plot XA :=
  mkplot (A := XA) nan_graph 2 [(0%Z, [XFin 0; XFin 0]); (1%Z, [XFin 1; XFin 0])].
Theorem C43_node_size_and_tooltip_refuted :
  exists (m : mapper_plot XA) colors agg net net2,
    compute_net XA xsqrt xround XPos XNeg string (fun s => Ok s) m colors (XFin 1) agg 10 10 "jet" = Ok net /\
    compute_net XA xsqrt xround XPos XNeg string (fun s => Ok s) m colors (XFin 2) agg 10 10 "jet" = Ok net2 /\
    map pv_size (net_nodes net) = [25; 25]%Z /\ map pv_size (net_nodes net2) = [25; 25]%Z /\
    node_attr (mp_graph m) 0 1 [0] /\
    exists v c, nth_error (net_nodes net) 0 = Some v /\ pv_title v = (c, 0%Z, 25%Z).
Proof.
  assert (W : well_formed (mp_graph equal_plot)).
  { cbn [equal_plot mp_graph nan_graph]. split; [repeat constructor; simpl; intuition discriminate|]. split; [reflexivity|].
    cbn [g_adj]. intros a nb [I|[I|[]]]; injection I as <- <-; constructor. }
  assert (P : forall z s ids, node_attr (mp_graph equal_plot) z s ids -> s = 1).
  { intros z s ids K. cbn in K. repeat (destruct K as [K|K]; [injection K as <- <- <-; reflexivity|]). destruct K. }
  assert (D : ~ sizes_differ (mp_graph equal_plot)).
  { intros [z1 [s1 [i1 [z2 [s2 [i2 [A1 [A2 A3]]]]]]]]. apply P in A1. apply P in A2. congruence. }
  assert (P' : forall z s ids, node_attr (mp_graph equal_plot) z s ids -> 0 < s) by (intros z s ids K; rewrite (P z s ids K); lia).
  assert (S : forall r net, compute_net XA xsqrt xround XPos XNeg string (fun s => Ok s) equal_plot [XFin 3; XFin 4] (XFin r) xfirst 10 10 "jet" = Ok net ->
    map pv_size (net_nodes net) = [25; 25]%Z).
  { intros r net E. pose proof (pyvis_shown XA xsqrt xround XPos XNeg string _ equal_plot W _ _ _ _ _ _ _ E) as [_ [L _]].
    destruct (C43_equal_sizes_ignore_node_size string _ equal_plot W P' D _ _ _ _ _ _ _ E 0 _ _ eq_refl) as [v0 [V0 S0]].
    destruct (C43_equal_sizes_ignore_node_size string _ equal_plot W P' D _ _ _ _ _ _ _ E 1 _ _ eq_refl) as [v1 [V1 S1]].
    destruct (net_nodes net) as [|a [|b [|]]]; try discriminate. cbn in V0, V1. injection V0 as <-. injection V1 as <-. cbn [map]. rewrite S0, S1. reflexivity. }
  exists equal_plot, [XFin 3; XFin 4], xfirst.
  destruct (compute_net XA xsqrt xround XPos XNeg string (fun s => Ok s) equal_plot [XFin 3; XFin 4] (XFin 1) xfirst 10 10 "jet") as [net|] eqn:E1;
    [|exfalso; discriminate].
  destruct (compute_net XA xsqrt xround XPos XNeg string (fun s => Ok s) equal_plot [XFin 3; XFin 4] (XFin 2) xfirst 10 10 "jet") as [net2|] eqn:E2;
    [|exfalso; discriminate].
  exists net, net2. split; [reflexivity|]. split; [reflexivity|]. pose proof (S _ _ E1) as S1. split; [exact S1|]. split; [exact (S _ _ E2)|].
  split; [left; reflexivity|].
  destruct (pyvis_shown XA xsqrt xround XPos XNeg string _ equal_plot W _ _ _ _ _ _ _ E1) as [_ [_ [cs [_ [_ Q]]]]].
  destruct (Q 0 0%Z 1 [0] eq_refl) as [v [pos [x [y [color [M [lo [Q1 [_ [_ [_ [_ [_ [_ [_ [_ [_ [_ [_ [_ [_ [_ Q12]]]]]]]]]]]]]]]]]]]]]].
  exists v, color. split; [exact Q1|]. rewrite Q12. destruct (net_nodes net) as [|a l]; [discriminate|]. cbn in Q1. injection Q1 as <-.
  cbn [map] in S1. injection S1 as -> _. reflexivity.
Qed.
Print Assumptions C43_node_size_and_tooltip_refuted.
