(** C41: what plots show (plot.py, plot_backends). *)
From Coq Require Import String Reals Lra Lia QArith SpecFloat.
From Verif Require Import Base BaseFacts Dict SpecMetric ModelArith ModelMetrics ModelCore SpecCore CoreGraph CoreProp VPProp.
From Verif Require Import ModelDraw ModelPlotly SpecPlot DrawFacts PlotlyFacts PlotlyProp PlotlyShow PlotlyUpdate PlotlyControls PlotlyEffect DrawProp.
From Verif Require PropCore.
Open Scope nat_scope.

(** ** C41: Mapper graphs meet the conditions on graphs below. *)
Theorem C41_mapper_graphs_drawable :
  forall (S : Type) (X : list S) (opens : gen (list nat)) (clust : clustering S) g,
  mapper_graph X opens clust = Ok g ->
  well_formed g /\ symmetric_graph g /\ lists_edges g (edges g) /\
  forall z s ids, node_attr g z s ids -> 0 < s /\ ids <> [] /\ forall j, In j ids -> j < length X.
Proof.
  intros S X opens clust g H. pose proof (graph_well_formed X opens clust g H) as W.
  assert (Sy : symmetric_graph g) by (intros u v Q; exact (proj1 (graph_edges_symmetric X opens clust g H u v Q))).
  split; [exact W|]. split; [exact Sy|]. split; [apply edges_listed; assumption|]. intros z s ids Hz.
  assert (R : forall j, In j ids -> j < length X) by (intros j J; exact (graph_ids_in_range X opens clust g z s ids j H Hz J)).
  assert (N : ids <> [] /\ s = length ids).
  { unfold mapper_graph in H. apply bind_ok in H. destruct H as [out [Ho H]].
    destruct (graph_of_labels_correct out) as [g' [E [_ [HN [HT _]]]]]. rewrite H in E. injection E as <-.
    apply HT in Hz. destruct Hz as [Hz [-> ->]]. split; [|reflexivity]. apply HN in Hz. destruct Hz as [i [lbls [K1 K2]]].
    assert (I : In i (ids_of (pts 0 out) z)) by (apply in_ids_of, in_pts; exists i, lbls; auto).
    intro K. rewrite K in I. destruct I. }
  destruct N as [N ->]. split; [destruct ids; [contradiction|simpl; lia]|]. auto.
Qed.
Print Assumptions C41_mapper_graphs_drawable.

(** ** C41: with igraph, the position of the [i]-th node is the [i]-th row of the layout. *)
Theorem C41_positions :
  forall (A : arith) ig_layout nx_layout (g : graph) dim m,
  well_formed g -> dim = 2 \/ dim = 3 -> make_plot A ig_layout nx_layout g dim "igraph" = Ok m ->
  mp_graph m = g /\ mp_dim m = dim /\ placed m /\
  forall i z a, nth_error (g_nodes g) i = Some (z, a) ->
    exists row, nth_error (ig_layout dim g) i = Some row /\ has_pos m z (firstn dim row) /\ dim <= length row.
Proof. exact make_plot_ig. Qed.
Print Assumptions C41_positions.

Theorem C41_positions_total :
  forall (A : arith) ig_layout nx_layout (g : graph) dim,
  well_formed g -> dim = 2 \/ dim = 3 ->
  length (g_nodes g) <= length (ig_layout dim g) -> (forall row, In row (ig_layout dim g) -> dim <= length row) ->
  exists m, make_plot A ig_layout nx_layout g dim "igraph" = Ok m.
Proof. exact make_plot_ig_total. Qed.
Print Assumptions C41_positions_total.

Theorem C41_unknown_engine :
  forall (A : arith) ig_layout nx_layout (g : graph) dim engine,
  engine <> "igraph"%string -> engine <> "networkx"%string ->
  make_plot A ig_layout nx_layout g dim engine = Err ValueError.
Proof.
  intros A il nl g dim engine N1 N2. unfold make_plot, compute_pos.
  destruct (String.eqb_spec engine "igraph"); [contradiction|]. destruct (String.eqb_spec engine "networkx"); [contradiction|]. reflexivity.
Qed.
Print Assumptions C41_unknown_engine.

(** ** C41: plotly, markers. The second trace has one marker per node; the [i]-th
    has position, colour (of the first column), size and tooltip of the [i]-th node. *)
Theorem C41_plotly_markers :
  forall (A : arith) CS get_colorscale plotly_cmap str_num (m : mapper_plot A),
  well_formed (mp_graph m) ->
  forall c ns ti agg cm w h f,
  plot_plotly A CS get_colorscale plotly_cmap str_num m c ns ti agg cm w h = Ok f ->
  exists cc et nt, to_colors c = Ok cc /\ f_traces f = [et; nt] /\
    (forall path, In path ["x"; "y"; "marker.size"; "marker.color"; "text"]%string ->
       array_length nt path = Some (length (g_nodes (mp_graph m)))) /\
    (mp_dim m = 3 -> array_length nt "z" = Some (length (g_nodes (mp_graph m)))) /\
    forall i n s ids, nth_error (g_nodes (mp_graph m)) i = Some (n, (s, ids)) ->
      exists p col color M, has_pos m n p /\ is_column cc 0 col /\ node_color col agg ids color /\
        largest (mp_graph m) M /\ M <> 0 /\
        (exists x, nth_error p 0 = Some x /\ shown nt "x" i = Some x) /\
        (exists y, nth_error p 1 = Some y /\ shown nt "y" i = Some y) /\
        (mp_dim m = 3 -> exists z, nth_error p 2 = Some z /\ shown nt "z" i = Some z) /\
        shown nt "marker.color" i = Some color /\
        shown nt "marker.size" i =
          Some (div A (mul A (ofz A (if mp_dim m =? 3 then 600%Z else 400%Z)) (ofz A (Z.of_nat s))) (ofz A (Z.of_nat M))) /\
        tooltip nt i = Some (color, n, s).
Proof.
  intros A CS gc pc sn m W c ns ti agg cm w h f H. apply plot_plotly_inv in H.
  destruct H as [cmaps [cc [titles [sizes [_ [H2 [_ [_ H]]]]]]]].
  destruct (markers_shown A CS gc pc sn m W _ _ _ _ _ _ _ _ H) as [et [nt H']]. exists cc, et, nt. split; [exact H2|exact H'].
Qed.
Print Assumptions C41_plotly_markers.

(** ** C41: plotly, edges. The first trace is a line with gaps: its [k]-th
    piece joins the positions of the ends of the [k]-th edge; in 3d it is
    coloured as the two nodes. Every edge of the graph occurs exactly once. *)
Theorem C41_plotly_edges :
  forall (A : arith) CS get_colorscale plotly_cmap str_num (m : mapper_plot A),
  well_formed (mp_graph m) -> symmetric_graph (mp_graph m) ->
  forall c ns ti agg cm w h f,
  plot_plotly A CS get_colorscale plotly_cmap str_num m c ns ti agg cm w h = Ok f ->
  exists et nt es, f_traces f = [et; nt] /\ lists_edges (mp_graph m) es /\ attr et "mode" = AStr "lines" /\
    (forall axis i, In (axis, i) (combine ["x"; "y"; "z"]%string (seq 0 (if mp_dim m =? 3 then 3 else 2))) ->
      array_length et axis = Some (3 * length es) /\
      forall k u v, nth_error es k = Some (u, v) ->
        exists p q x y, has_pos m u p /\ has_pos m v q /\ nth_error p i = Some x /\ nth_error q i = Some y /\
          path_point et axis (3 * k) = Some (Some x) /\ path_point et axis (3 * k + 1) = Some (Some y) /\
          path_point et axis (3 * k + 2) = Some None) /\
    (mp_dim m = 3 -> array_length et "line.color" = Some (3 * length es) /\
      attr et "line.cmin" = attr nt "marker.cmin" /\ attr et "line.cmax" = attr nt "marker.cmax" /\
      attr et "line.colorscale" = attr nt "marker.colorscale" /\
      forall k u v i j au av, nth_error es k = Some (u, v) ->
        nth_error (g_nodes (mp_graph m)) i = Some (u, au) -> nth_error (g_nodes (mp_graph m)) j = Some (v, av) ->
        shown et "line.color" (3 * k) = shown nt "marker.color" i /\
        shown et "line.color" (3 * k + 1) = shown nt "marker.color" j).
Proof.
  intros A CS gc pc sn m W Sy c ns ti agg cm w h f H. apply plot_plotly_inv in H.
  destruct H as [cmaps [cc [titles [sizes [_ [_ [_ [_ H]]]]]]]].
  destruct (edges_shown A CS gc pc sn m W _ _ _ _ _ _ _ _ H) as [et [nt [H1 [H2 H3]]]].
  exists et, nt, (edges (mp_graph m)). split; [exact H1|]. split; [apply edges_listed; assumption|]. split; [exact H2|exact H3].
Qed.
Print Assumptions C41_plotly_edges.

(** ** C41: plotly, marker sizes over the reals: positive, at most the full size
    (400 in 2d, 600 in 3d), in proportion to the number of points, and full for
    the largest node. *)
Theorem C41_plotly_sizes :
  forall CS get_colorscale plotly_cmap str_num (m : mapper_plot RA),
  well_formed (mp_graph m) -> (forall z s ids, node_attr (mp_graph m) z s ids -> 0 < s) ->
  forall c ns ti agg cm w h f,
  plot_plotly RA CS get_colorscale plotly_cmap str_num m c ns ti agg cm w h = Ok f ->
  exists et nt (full : R), f_traces f = [et; nt] /\ full = (if mp_dim m =? 3 then 600 else 400)%R /\
  forall i n s ids, nth_error (g_nodes (mp_graph m)) i = Some (n, (s, ids)) ->
    exists x, shown nt "marker.size" i = Some x /\ (0 < x <= full)%R /\ (largest (mp_graph m) s -> x = full) /\
    forall j n' s' ids' x', nth_error (g_nodes (mp_graph m)) j = Some (n', (s', ids')) -> shown nt "marker.size" j = Some x' ->
      (x * INR s' = x' * INR s)%R.
Proof.
  intros CS gc pc sn m W Sz c ns ti agg cm w h f H.
  destruct (C41_plotly_markers RA CS gc pc sn m W _ _ _ _ _ _ _ _ H) as [cc [et [nt [_ [E [_ [_ Q]]]]]]].
  exists et, nt, (if mp_dim m =? 3 then 600 else 400)%R. split; [exact E|]. split; [reflexivity|].
  assert (V : forall i n s ids, nth_error (g_nodes (mp_graph m)) i = Some (n, (s, ids)) ->
    exists M, largest (mp_graph m) M /\ 0 < M /\ shown nt "marker.size" i = Some ((if mp_dim m =? 3 then 600 else 400) * INR s / INR M)%R).
  { intros i n s ids Ei. destruct (Q i n s ids Ei) as [p [col [color [M [_ [_ [_ [L [N [_ [_ [_ [_ [Sh _]]]]]]]]]]]]]].
    exists M. split; [exact L|]. split; [lia|]. rewrite Sh. cbn [RA div mul ofz]. rewrite !INR_IZR_INZ. destruct (mp_dim m =? 3); reflexivity. }
  assert (F : (0 < if mp_dim m =? 3 then 600 else 400)%R) by (destruct (mp_dim m =? 3); lra).
  set (full := (if mp_dim m =? 3 then 600 else 400)%R) in *. intros i n s ids Ei.
  destruct (V i n s ids Ei) as [M [L [PM Sh]]]. exists (full * INR s / INR M)%R. split; [exact Sh|].
  assert (P : (0 < INR M)%R) by (apply lt_0_INR; exact PM).
  assert (Ps : (0 < INR s)%R) by (apply lt_0_INR; apply (Sz n s ids); eapply nth_error_In; eauto).
  assert (Le : (INR s <= INR M)%R) by (apply le_INR; apply (proj2 L n s ids); eapply nth_error_In; eauto).
  assert (I : (0 < / INR M)%R) by (apply Rinv_0_lt_compat; exact P).
  split; [split|split].
  - unfold Rdiv. apply Rmult_lt_0_compat; [apply Rmult_lt_0_compat|]; assumption.
  - apply (Rmult_le_reg_r (INR M)); [exact P|]. unfold Rdiv. rewrite Rmult_assoc, Rinv_l by lra. rewrite Rmult_1_r.
    apply Rmult_le_compat_l; [lra|exact Le].
  - intro L'. rewrite (largest_unique _ _ _ L' L). unfold Rdiv. rewrite Rmult_assoc, Rinv_r by lra. lra.
  - intros j n' s' ids' x' Ej Sj. destruct (V j n' s' ids' Ej) as [M' [L' [_ Sh']]]. rewrite Sj in Sh'. injection Sh' as ->.
    rewrite (largest_unique _ _ _ L' L). unfold Rdiv. ring.
Qed.
Print Assumptions C41_plotly_sizes.

(** ** C41: plotly, colours lie between cmin and cmax, which are two of them,
    when the aggregated colours are totally ordered. *)
Theorem C41_plotly_color_range :
  forall (A : arith) CS get_colorscale plotly_cmap str_num (m : mapper_plot A),
  well_formed (mp_graph m) -> g_nodes (mp_graph m) <> [] ->
  forall c ns ti agg cm w h f (P : num A -> Prop),
  plot_plotly A CS get_colorscale plotly_cmap str_num m c ns ti agg cm w h = Ok f ->
  strict_total_on (lt_b A) P -> (forall xs v, agg xs = Ok v -> P v) ->
  exists et nt lo hi, f_traces f = [et; nt] /\ attr nt "marker.cmin" = ANum lo /\ attr nt "marker.cmax" = ANum hi /\
    (exists i, shown nt "marker.color" i = Some lo) /\ (exists i, shown nt "marker.color" i = Some hi) /\
    forall i v, shown nt "marker.color" i = Some v -> lt_b A v lo = false /\ lt_b A hi v = false.
Proof.
  intros A CS gc pc sn m W N c ns ti agg cm w h f P H O Ha. apply plot_plotly_inv in H.
  destruct H as [cmaps [cc [titles [sizes [_ [_ [_ [_ H]]]]]]]].
  refine (color_range_shown A CS gc pc sn m W _ _ _ _ _ _ _ _ P H O _ N).
  intros col z s ids v _ _ [xs [_ E]]. exact (Ha xs v E).
Qed.
Print Assumptions C41_plotly_color_range.

(** ** C41: plotly, plotting succeeds when the graph is as in
    [C41_mapper_graphs_drawable], every node has a position, the colours cover all
    points, there is a title per column, and sizes and colour scales are given and known. *)
Theorem C41_plotly_total :
  forall (A : arith) CS get_colorscale plotly_cmap str_num (m : mapper_plot A),
  well_formed (mp_graph m) -> symmetric_graph (mp_graph m) -> placed m -> mp_dim m = 2 \/ mp_dim m = 3 ->
  forall c ns ti agg cm w h cc titles sizes cmaps cm0 cs0,
  to_colors c = Ok cc -> to_titles ti (c_cols cc) = Ok titles -> length titles = c_cols cc ->
  to_node_sizes ns = Ok sizes -> sizes <> [] -> to_cmaps cm = Ok cmaps ->
  (forall row, In row (c_rows cc) -> length row = c_cols cc) -> 0 < c_cols cc ->
  (forall z s ids, node_attr (mp_graph m) z s ids -> 0 < s /\ ids <> [] /\ forall j, In j ids -> j < length (c_rows cc)) ->
  (forall xs, xs <> [] -> exists v, agg xs = Ok v) ->
  nth_error cmaps 0 = Some cm0 -> get_colorscale cm0 = Ok cs0 ->
  (forall name name', In name cmaps -> plotly_cmap name = Some name' -> exists cs, get_colorscale name' = Ok cs) ->
  exists f, plot_plotly A CS get_colorscale plotly_cmap str_num m c ns ti agg cm w h = Ok f.
Proof.
  intros A CS gc pc sn m W Sy Pl D c ns ti agg cm w h cc titles sizes cmaps cm0 cs0 H1 H2 Lt H3 Ns H4 Hr C0 Hi Ha Hc Hcs Hn.
  rewrite (plot_plotly_intro A CS gc pc sn m c ns ti agg cm w h cmaps cc titles sizes H4 H1 H2 H3).
  apply (plot_total A CS gc pc sn m W Sy Pl D (fun z s ids Hz => proj1 (Hi z s ids Hz)) cc sizes titles agg cmaps w h cm0 cs0); auto.
  intros z s ids Hz. exact (proj2 (Hi z s ids Hz)).
Qed.
Print Assumptions C41_plotly_total.

(** The titles made up by [to_titles] are as many as the columns. *)
Theorem C41_titles_fit : forall ti n titles, to_titles ti n = Ok titles -> length titles = n.
Proof.
  intros [|s|l|] n titles H; cbn [to_titles] in H.
  - injection H as <-. rewrite map_length, seq_length. reflexivity.
  - destruct (Nat.eqb_spec n 1) as [->|]; injection H as <-; [reflexivity|]. rewrite map_length, seq_length. reflexivity.
  - destruct (Nat.eqb_spec (length l) n) as [E|]; [|discriminate]. injection H as <-. exact E.
  - discriminate.
Qed.
Print Assumptions C41_titles_fit.

(** ** C41: matplotlib. *)
Theorem C41_matplotlib :
  forall (A : arith) root (m : mapper_plot A), well_formed (mp_graph m) -> symmetric_graph (mp_graph m) ->
  forall title colors node_size agg cmap p,
  plot_matplotlib A root m title colors node_size agg cmap = Ok p ->
  length (mpl_x p) = length (g_nodes (mp_graph m)) /\ length (mpl_y p) = length (g_nodes (mp_graph m)) /\
  length (mpl_c p) = length (g_nodes (mp_graph m)) /\ length (mpl_s p) = length (g_nodes (mp_graph m)) /\
  (forall i z s ids, nth_error (g_nodes (mp_graph m)) i = Some (z, (s, ids)) ->
     exists pos x y color M, has_pos m z pos /\ nth_error pos 0 = Some x /\ nth_error pos 1 = Some y /\
       node_color colors agg ids color /\ largest (mp_graph m) M /\ M <> 0 /\
       nth_error (mpl_x p) i = Some x /\ nth_error (mpl_y p) i = Some y /\ nth_error (mpl_c p) i = Some color /\
       nth_error (mpl_s p) i =
         Some (mul A (mul A node_size (ofz A 200)) (root (div A (ofz A (Z.of_nat s)) (ofz A (Z.of_nat M)))))) /\
  (exists es, lists_edges (mp_graph m) es /\ length (mpl_segments p) = length es /\
     forall k u v, nth_error es k = Some (u, v) ->
       exists a b, has_pos m u a /\ has_pos m v b /\ nth_error (mpl_segments p) k = Some (a, b)) /\
  mpl_cmap p = cmap /\ mpl_label p = title /\
  forall P : num A -> Prop, strict_total_on (lt_b A) P -> Forall P (mpl_c p) -> g_nodes (mp_graph m) <> [] ->
    exists lo hi, mpl_vmin p = Some lo /\ mpl_vmax p = Some hi /\ In lo (mpl_c p) /\ In hi (mpl_c p) /\
      forall v, In v (mpl_c p) -> lt_b A v lo = false /\ lt_b A hi v = false.
Proof.
  intros A root m W Sy title colors node_size agg cmap p H.
  destruct (matplotlib_shown A root m W _ _ _ _ _ _ H) as [L1 [L2 [L3 [L4 [Q [L5 [Qe [E1 [E2 [E3 E4]]]]]]]]]].
  repeat (split; [assumption|]). split; [exists (edges (mp_graph m)); split; [apply edges_listed; assumption|auto]|].
  split; [exact E1|]. split; [exact E2|]. intros P O F N.
  assert (Nc : mpl_c p <> []) by (intro K; rewrite K in L3; destruct (g_nodes (mp_graph m)); [contradiction|discriminate]).
  destruct (py_min_ok (lt_b A) P O (mpl_c p) F Nc) as [lo [M1 [M2 M3]]]. destruct (py_max_ok (lt_b A) P (mpl_c p) O F Nc) as [hi [M4 [M5 M6]]].
  exists lo, hi. rewrite E3, E4. repeat (split; [assumption|]). auto.
Qed.
Print Assumptions C41_matplotlib.

(** ** Examples *)
Open Scope Q_scope.
Definition demo_graph : graph :=
  mkgraph [(0, (2, [0; 2])%nat); (4, (1, [0])%nat); (1, (1, [1])%nat); (2, (1, [2])%nat); (3, (1, [3])%nat)]%Z
          [(0, [4; 2]); (4, [0]); (1, []); (2, [0]); (3, [])]%Z.
Definition demo_layout (dim : nat) (g : graph) : list (list Q) :=
  map (fun i => [inject_Z (Z.of_nat i); 1 # 2; - inject_Z (Z.of_nat i)]) (seq 0 (length (g_nodes g))).
Definition demo_plot (dim : nat) : mapper_plot QA :=
  match make_plot QA demo_layout (fun _ _ => []) demo_graph dim "igraph" with Ok m => m | Err _ => mkplot demo_graph dim [] end.
Definition mean (l : list Q) : res Q :=
  match l with [] => Err ZeroDivisionError | _ => Ok (Qred (fold_left Qplus l 0 / inject_Z (Z.of_nat (length l)))) end.
Definition demo_scale (s : string) : res string :=
  if existsb (String.eqb s) ["Jet"; "Viridis"; "Plasma"]%string then Ok s else Err ValueError.
Definition demo_cmap (s : string) : option string :=
  if String.eqb s "jet" then Some "Jet"%string else if existsb (String.eqb s) ["Jet"; "Viridis"; "Plasma"]%string then Some s else None.
Definition demo_str (q : Q) : string := "size"%string.
Definition demo_colors : colors2 QA := mkcolors (A := QA) [[1; 10]; [2; 20]; [3; 30]; [4; 40]; [5; 50]] 2.
Definition demo_fig (dim : nat) : res (figure QA string) :=
  plot_plotly QA string demo_scale demo_cmap demo_str (demo_plot dim) (CA2 demo_colors) (NSList (A := QA) [1; 2; 4])
    (TList ["a"; "b"]%string) mean (CMList ["Viridis"; "Jet"]%string) (Some 800%Z) None.
Close Scope Q_scope.

Example C41_demo_graph_is_mapper :
  mapper_graph PropCore.demo_X PropCore.demo_opens PropCore.demo_clust = Ok demo_graph.
Proof. vm_compute. reflexivity. Qed.
Example C41_demo_edges : edges demo_graph = [(0, 4); (0, 2)]%Z.
Proof. reflexivity. Qed.
Definition demo_read (f : res (figure QA string)) (i : nat) (paths : list string) : list (aval QA string) :=
  match f with
  | Ok f => match nth_error (f_traces f) i with Some t => map (attr t) paths | None => [] end
  | Err _ => []
  end.
Example C41_demo_markers :
  demo_read (demo_fig 3) 1 ["x"; "z"; "marker.color"; "marker.size"; "marker.cmin"; "marker.cmax"; "marker.colorscale"]%string =
  [ANums (A := QA) [0; 1; 2; 3; 4]%Q; ANums (A := QA) [0; - (1); - (2); - (3); - (4)]%Q; ANums (A := QA) [2; 1; 2; 3; 4]%Q;
   ANums (A := QA) [600; 300; 300; 300; 300]%Q; ANum (A := QA) 1%Q; ANum (A := QA) 4%Q; AScale "Viridis"%string].
Proof. vm_cast_no_check (eq_refl (demo_read (demo_fig 3) 1
  ["x"; "z"; "marker.color"; "marker.size"; "marker.cmin"; "marker.cmax"; "marker.colorscale"]%string)). Qed.
Example C41_demo_lines :
  demo_read (demo_fig 3) 0 ["x"; "line.color"]%string =
  [APath (A := QA) [Some 0; Some 1; None; Some 0; Some 3; None]%Q; ANums (A := QA) [2; 1; 1; 2; 3; 3]%Q].
Proof. vm_cast_no_check (eq_refl (demo_read (demo_fig 3) 0 ["x"; "line.color"]%string)). Qed.
Definition is_ok {X} (r : res X) : bool := match r with Ok _ => true | Err _ => false end.
Example C41_demo_succeeds : is_ok (demo_fig 3) = true /\ is_ok (demo_fig 2) = true.
Proof. split; vm_compute; reflexivity. Qed.
Example C41_demo_placed : placed (demo_plot 3) /\ well_formed (mp_graph (demo_plot 3)) /\ symmetric_graph (mp_graph (demo_plot 3)).
Proof.
  destruct (C41_mapper_graphs_drawable _ _ _ _ _ C41_demo_graph_is_mapper) as [W [Sy _]]. split; [|split; assumption].
  intros n H. unfold has_pos. vm_compute in H. repeat (destruct H as [<-|H]; [vm_compute; eexists; split; reflexivity|]). destruct H.
Qed.
Example C41_rational_colors_ordered : strict_total_on (lt_b QA) (fun _ => True).
Proof.
  unfold strict_total_on. cbn [QA lt_b]. split.
  - intros a b _ _ H. apply Bool.negb_true_iff in H. apply Bool.negb_false_iff. apply Qle_bool_iff.
    destruct (Qlt_le_dec a b) as [L|L]; [apply Qlt_le_weak; exact L|]. apply Qle_bool_iff in L. congruence.
  - intros a b c _ _ _ H1 H2. apply Bool.negb_false_iff in H1. apply Bool.negb_false_iff in H2. apply Bool.negb_false_iff.
    apply Qle_bool_iff in H1. apply Qle_bool_iff in H2. apply Qle_bool_iff. eapply Qle_trans; eauto.
Qed.
Definition demo_mpl : res (mpl QA) :=
  plot_matplotlib QA (fun q => q) (demo_plot 2) None [1; 2; 3; 4; 5]%Q 3%Q mean "jet".
Definition demo_mpl_read (r : res (mpl QA)) : list (list Q) * nat :=
  match r with
  | Ok p => ([mpl_c p; mpl_s p; match mpl_vmin p, mpl_vmax p with Some a, Some b => [a; b] | _, _ => [] end], length (mpl_segments p))
  | Err _ => ([], 0)
  end.
Example C41_matplotlib_demo :
  demo_mpl_read demo_mpl = ([[2; 1; 2; 3; 4]; [600; 300; 300; 300; 300]; [1; 4]]%Q, 2).
Proof. vm_cast_no_check (eq_refl (demo_mpl_read demo_mpl)). Qed.

(** ** C41: false in double precision when the first node's colour is not a
    number: cmin and cmax are not numbers although other nodes have a colour. *)
Definition fone : spec_float := ofz FA 1.
Definition nan_graph : graph := mkgraph [(0, (1, [0])%nat); (1, (1, [1])%nat)]%Z [(0, []); (1, [])]%Z.
Definition nan_plot : mapper_plot FA := mkplot (A := FA) nan_graph 2 [(0%Z, [fone; fone]); (1%Z, [fone; fone])].
Definition first_of (l : list spec_float) : res spec_float := match l with x :: _ => Ok x | [] => Err ValueError end.
Theorem C41_nan_color_refuted :
  exists (m : mapper_plot FA) (c : colors_arg FA) (agg : agg_fn FA) (f : figure FA string) (et nt : attrs FA string),
    well_formed (mp_graph m) /\ placed m /\
    plot_plotly FA string demo_scale demo_cmap (fun _ => "size"%string) m c (NSNum (A := FA) fone) TNone agg (CMStr "Jet") None None = Ok f /\
    f_traces f = [et; nt] /\ shown nt "marker.color" 1 = Some fone /\
    attr nt "marker.cmin" = ANum (A := FA) S754_nan /\ attr nt "marker.cmax" = ANum (A := FA) S754_nan /\
    ~ (exists lo, attr nt "marker.cmin" = ANum lo /\ le_b FA lo fone = true).
Proof.
  destruct (plot_plotly FA string demo_scale demo_cmap (fun _ => "size"%string) nan_plot (CA1 (A := FA) [S754_nan; fone])
    (NSNum (A := FA) fone) TNone first_of (CMStr "Jet") None None) as [f|e] eqn:E.
  2: { exfalso. apply (f_equal is_ok) in E. vm_compute in E. discriminate. }
  assert (K : match f_traces f with
    | [et; nt] => shown nt "marker.color" 1 = Some fone /\
      attr nt "marker.cmin" = ANum (A := FA) S754_nan /\ attr nt "marker.cmax" = ANum (A := FA) S754_nan
    | _ => False end).
  { pose (q := fun r : res (figure FA string) => match r with
      | Ok f => match f_traces f with
        | [et; nt] => (shown nt "marker.color" 1, [attr nt "marker.cmin"; attr nt "marker.cmax"]) | _ => (None, []) end
      | Err _ => (None, []) end).
    assert (Q : q (Ok f) = (Some fone, [ANum (A := FA) S754_nan; ANum (A := FA) S754_nan])).
    { rewrite <- E. vm_cast_no_check (eq_refl (Some fone, [ANum (A := FA) (CS := string) S754_nan; ANum (A := FA) S754_nan])). }
    unfold q in Q. destruct (f_traces f) as [|et [|nt [|]]]; try discriminate. injection Q as Q1 Q2 Q3. auto. }
  destruct (f_traces f) as [|et [|nt [|]]] eqn:Ef; try contradiction. destruct K as [K1 [K2 K3]].
  exists nan_plot, (CA1 (A := FA) [S754_nan; fone]), first_of, f, et, nt. split.
  { cbn [nan_plot mp_graph nan_graph]. split; [repeat constructor; simpl; intuition discriminate|]. split; [reflexivity|].
    cbn [g_adj]. intros a nb [I|[I|[]]]; injection I as <- <-; constructor. }
  split. { intros n [<-|[<-|[]]]; eexists; split; reflexivity. }
  split; [exact E|]. split; [exact Ef|]. split; [exact K1|]. split; [exact K2|]. split; [exact K3|].
  intros [lo [L1 L2]]. rewrite K2 in L1. injection L1 as <-. vm_compute in L2. discriminate.
Qed.
Print Assumptions C41_nan_color_refuted.

(** ** C41: plotting without a node size, the default of the function plot_plotly
    (not of the method MapperPlot.plot_plotly, whose default is 1), raises. *)
Theorem C41_default_node_size_fails :
  forall (A : arith) CS get_colorscale plotly_cmap str_num (m : mapper_plot A) c ti agg cm w h,
  exists e, plot_plotly A CS get_colorscale plotly_cmap str_num m c NSNone ti agg cm w h = Err e.
Proof.
  intros. unfold plot_plotly. destruct (to_cmaps cm); cbn [bind]; [|eauto]. destruct (to_colors c); cbn [bind]; [|eauto].
  destruct (to_titles ti _); cbn [bind to_node_sizes]; eauto.
Qed.
Print Assumptions C41_default_node_size_fails.
