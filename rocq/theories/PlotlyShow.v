(** What a plotly figure shows, how updates act and what the controls do. *)
From Coq Require Import String.
From Verif Require Import Base BaseFacts Dict DictFacts ModelArith ModelCore SpecCore CoreLabels CoreGraph CoreProp UnionFindProp.
From Verif Require Import ModelDraw ModelPlotly SpecPlot DrawFacts PlotlyFacts PlotlyProp.
Open Scope nat_scope.

Section Show.
Variable A : arith.
Variable CS : Type.
Variable get_colorscale : string -> res CS.
Variable plotly_cmap : string -> option string.
Variable str_num : num A -> string.
Variable m : mapper_plot A.
Notation g := (mp_graph m).
Notation dim := (mp_dim m).
Notation figure := (figure A CS).
Notation attrs := (attrs A CS).
Notation plot := (plot A CS get_colorscale plotly_cmap str_num m).
Notation settings_of := (settings_of A CS get_colorscale m).

(** The traces before any setting is applied. *)
Lemma new_traces e n : new_figure A CS m = Ok (mkfig [e; n] (layout A CS) [] []) ->
  exists na ea x y ex ey sz, node_pos_array A m = Ok na /\ edge_pos_array A m = Ok ea /\ marker_size A m = Ok sz /\
    nth_error na 0 = Some x /\ nth_error na 1 = Some y /\ nth_error ea 0 = Some ex /\ nth_error ea 1 = Some ey /\
    ((dim <> 3 /\ edges_trace A CS m ea = Ok e /\ nodes_trace A CS m na = Ok n) \/
     (dim = 3 /\ edges_trace A CS m ea = Ok e /\ nodes_trace A CS m na = Ok n /\ exists z ez, nth_error na 2 = Some z /\ nth_error ea 2 = Some ez)).
Proof.
  unfold new_figure. intro H. apply bind_ok in H. destruct H as [na [H1 H]]. apply bind_ok in H. destruct H as [ea [H2 H]].
  apply bind_ok in H. destruct H as [e' [H3 H]]. apply bind_ok in H. destruct H as [n' [H4 H]]. injection H as -> ->.
  pose proof H3 as H3'. pose proof H4 as H4'.
  unfold edges_trace in H3. apply bind_ok in H3. destruct H3 as [ex [X1 H3]]. apply bind_ok in H3. destruct H3 as [ey [X2 H3]].
  unfold nodes_trace in H4. apply bind_ok in H4. destruct H4 as [x [X3 H4]]. apply bind_ok in H4. destruct H4 as [y [X4 H4]].
  apply bind_ok in H4. destruct H4 as [sz [X5 H4]].
  apply rd_ok in X1. apply rd_ok in X2. apply rd_ok in X3. apply rd_ok in X4.
  exists na, ea, x, y, ex, ey, sz. repeat (split; [assumption|]).
  destruct (Nat.eqb_spec dim 3) as [D|D].
  - right. split; [exact D|]. split; [exact H3'|]. split; [exact H4'|].
    apply bind_ok in H3. destruct H3 as [ez [X6 _]]. apply bind_ok in H4. destruct H4 as [z [X7 _]].
    apply rd_ok in X6. apply rd_ok in X7. eauto.
  - left. auto.
Qed.

(** Reading the attributes of the node trace of a plotted figure. *)
Lemma node_reads na n st : nodes_trace A CS m na = Ok n ->
  forall x y sz, nth_error na 0 = Some x -> nth_error na 1 = Some y -> marker_size A m = Ok sz ->
  let t := node_patches A CS st n in
  attr t "x" = ANums x /\ attr t "y" = ANums y /\ (dim = 3 -> forall z, nth_error na 2 = Some z -> attr t "z" = ANums z) /\
  attr t "marker.size" = ANums sz /\ attr t "marker.color" = ANums (st_colors A CS st) /\
  attr t "marker.cmin" = cmin A CS st /\ attr t "marker.cmax" = cmax A CS st /\
  attr t "text" = ATexts (st_text A CS st) /\ attr t "marker.colorbar.title.text" = AStr (st_title A CS st) /\
  attr t "marker.sizeref" = ANum (sizeref A (st_size A CS st)) /\ attr t "marker.sizemode" = AStr "area" /\
  attr t "marker.colorscale" = AScale (st_scale A CS st) /\ attr t "mode" = AStr "markers".
Proof.
  intros H x y sz Hx Hy Hs. unfold nodes_trace in H. unfold rd in H. rewrite Hx, Hy, Hs in H. cbn [bind] in H.
  destruct (Nat.eqb_spec dim 3) as [D|D].
  - destruct (nth_error na 2) as [z|] eqn:Hz; [|discriminate]. cbn [bind] in H. injection H as <-. cbv zeta.
    repeat split. intros _ z' E. injection E as <-. reflexivity.
  - injection H as <-. cbv zeta. repeat split. intro; contradiction.
Qed.

Lemma edge_reads ea e st : edges_trace A CS m ea = Ok e ->
  forall x y, nth_error ea 0 = Some x -> nth_error ea 1 = Some y ->
  let t := edge_patches A CS m st e in
  attr t "x" = APath x /\ attr t "y" = APath y /\ attr t "mode" = AStr "lines" /\
  (dim = 3 -> (forall z, nth_error ea 2 = Some z -> attr t "z" = APath z) /\
     attr t "line.color" = ANums (st_edge A CS st) /\ attr t "line.cmin" = cmin A CS st /\
     attr t "line.cmax" = cmax A CS st /\ attr t "line.colorscale" = AScale (st_scale A CS st)).
Proof.
  intros H x y Hx Hy. unfold edges_trace in H. unfold rd in H. rewrite Hx, Hy in H. cbn [bind] in H.
  unfold edge_patches. destruct (Nat.eqb_spec dim 3) as [D|D].
  - destruct (nth_error ea 2) as [z|] eqn:Hz; [|discriminate]. cbn [bind] in H. injection H as <-. cbv zeta.
    repeat split. intros z' E. injection E as <-. reflexivity.
  - injection H as <-. cbv zeta. destruct (dim =? 2); (repeat (split; [reflexivity|])); intro; contradiction.
Qed.

Lemma settings_inv titles ns c agg cmaps st : settings_of titles ns c agg cmaps = Ok st ->
  exists col cols cm, nth_error titles 0 = Some (st_title A CS st) /\ nth_error ns (length ns / 2) = Some (st_size A CS st) /\
    column c 0 = Ok col /\ aggregate_graph col g agg = Ok cols /\ st_colors A CS st = map snd cols /\
    text A m cols = Ok (st_text A CS st) /\ (dim = 3 -> edge_colors A m cols = Ok (st_edge A CS st)) /\
    nth_error cmaps 0 = Some cm /\ get_colorscale cm = Ok (st_scale A CS st).
Proof.
  unfold PlotlyProp.settings_of. intro H. repeat (apply bind_ok in H; let a := fresh "a" in let E := fresh "E" in destruct H as [a [E H]]).
  injection H as <-. apply rd_ok in E. apply rd_ok in E0. apply rd_ok in E5.
  exists a1, a2, a5. repeat split; auto. cbn. intro D. destruct (Nat.eqb_spec dim 3); [exact E4|contradiction].
Qed.

Lemma column_spec (c : colors2 A) i col : column c i = Ok col <-> is_column c i col.
Proof.
  unfold column, is_column. destruct (Nat.ltb_spec i (c_cols c)) as [L|L].
  - rewrite map_res_ok. split.
    + intro H. split; [exact L|]. eapply Forall2_impl; [|exact H]. intros a b E. apply rd_ok. exact E.
    + intros [_ H]. eapply Forall2_impl; [|exact H]. intros a b E. apply rd_ok. exact E.
  - split; [discriminate|]. intros [K _]. lia.
Qed.

Hypothesis W : well_formed g.

Lemma markers_shown c ns titles agg cmaps w h f : plot c ns titles agg cmaps w h = Ok f ->
  exists et nt, f_traces f = [et; nt] /\
    (forall path, In path ["x"; "y"; "marker.size"; "marker.color"; "text"]%string -> array_length nt path = Some (length (g_nodes g))) /\
    (dim = 3 -> array_length nt "z" = Some (length (g_nodes g))) /\
    forall i n s ids, nth_error (g_nodes g) i = Some (n, (s, ids)) ->
      exists p col color M, has_pos m n p /\ is_column c 0 col /\ node_color col agg ids color /\ largest g M /\ M <> 0 /\
        (exists x, nth_error p 0 = Some x /\ shown nt "x" i = Some x) /\
        (exists y, nth_error p 1 = Some y /\ shown nt "y" i = Some y) /\
        (dim = 3 -> exists z, nth_error p 2 = Some z /\ shown nt "z" i = Some z) /\
        shown nt "marker.color" i = Some color /\
        shown nt "marker.size" i = Some (div A (mul A (ofz A (if dim =? 3 then 600%Z else 400%Z)) (ofz A (Z.of_nat s))) (ofz A (Z.of_nat M))) /\
        tooltip nt i = Some (color, n, s).
Proof.
  intro H. apply plot_closed in H. destruct H as [e [n0 [st [mc [mo [H0 [Nm [Hs [Hc [Ho ->]]]]]]]]]].
  apply settings_inv in Hs. destruct Hs as [col [cols [cm [S1 [S2 [S3 [S4 [S5 [S6 [S7 [S8 S9]]]]]]]]]]].
  apply new_traces in H0. destruct H0 as [na [ea [x [y [ex [ey [sz [P1 [P2 [P3 [P4 [P5 [P6 [P7 D]]]]]]]]]]]]]].
  assert (Hn : nodes_trace A CS m na = Ok n0) by (destruct D as [D|D]; tauto).
  destruct (node_reads na n0 st Hn x y sz P4 P5 P3) as [R1 [R2 [R3 [R4 [R5 [_ [_ [R6 _]]]]]]]].
  destruct (node_axis A m na 0 x P1 P4) as [L1 N1]. destruct (node_axis A m na 1 y P1 P5) as [L2 N2].
  destruct (marker_size_nth A m W sz P3) as [L3 N3].
  destruct (agg_nth A m W col agg cols S4) as [L4 [K4 N4]].
  destruct (text_nth A m W cols _ K4 S6) as [L5 N5].
  exists (edge_patches A CS m st e), (node_patches A CS st n0). split; [reflexivity|].
  set (nt := node_patches A CS st n0) in *. split; [|split].
  - intros path I. unfold array_length.
    destruct I as [<-|[<-|[<-|[<-|[<-|[]]]]]]; [rewrite R1|rewrite R2|rewrite R4|rewrite R5, S5|rewrite R6]; f_equal; auto.
    rewrite map_length. exact L4.
  - intro D3. destruct D as [[D _]|[_ [_ [_ [z [ez [Z1 Z2]]]]]]]; [contradiction|].
    unfold array_length. rewrite (R3 D3 z Z1). f_equal. exact (proj1 (node_axis A m na 2 z P1 Z1)).
  - intros i n s ids Hi.
    destruct (N1 i n s ids Hi) as [p [vx [Q1 [Q2 Q3]]]]. destruct (N2 i n s ids Hi) as [p' [vy [Q1' [Q2' Q3']]]].
    assert (p' = p) by (unfold has_pos in *; congruence). subst p'.
    destruct (N4 i n s ids Hi) as [color [C1 [C2 C3]]]. destruct (N5 i n s ids Hi) as [color' [C4 C5]].
    assert (color' = color) by congruence. subst color'.
    destruct (N3 i n s ids Hi) as [M [M1 [M2 M3]]].
    exists p, col, color, M. split; [exact Q1|]. split; [apply column_spec, S3|]. split; [exact C2|]. split; [exact M1|]. split; [exact M2|].
    unfold shown, tooltip. rewrite R1, R2, R4, R5, R6, S5.
    split; [eauto|]. split; [eauto|]. split; [|auto].
    intro D3. destruct D as [[D _]|[_ [_ [_ [z [ez [Z1 Z2]]]]]]]; [contradiction|].
    rewrite (R3 D3 z Z1). destruct (node_axis A m na 2 z P1 Z1) as [_ N6]. destruct (N6 i n s ids Hi) as [p' [vz [Q1'' [Q2'' Q3'']]]].
    assert (p' = p) by (unfold has_pos in *; congruence). subst p'. eauto.
Qed.

Lemma edges_shown c ns titles agg cmaps w h f : plot c ns titles agg cmaps w h = Ok f ->
  exists et nt, f_traces f = [et; nt] /\ attr et "mode" = AStr "lines" /\
    (forall axis i, In (axis, i) (combine ["x"; "y"; "z"]%string (seq 0 (if dim =? 3 then 3 else 2))) ->
      array_length et axis = Some (3 * length (edges g)) /\
      forall k u v, nth_error (edges g) k = Some (u, v) ->
        exists p q x y, has_pos m u p /\ has_pos m v q /\ nth_error p i = Some x /\ nth_error q i = Some y /\
          path_point et axis (3 * k) = Some (Some x) /\ path_point et axis (3 * k + 1) = Some (Some y) /\
          path_point et axis (3 * k + 2) = Some None) /\
    (dim = 3 -> array_length et "line.color" = Some (3 * length (edges g)) /\
      attr et "line.cmin" = attr nt "marker.cmin" /\ attr et "line.cmax" = attr nt "marker.cmax" /\
      attr et "line.colorscale" = attr nt "marker.colorscale" /\
      forall k u v i j au av, nth_error (edges g) k = Some (u, v) ->
        nth_error (g_nodes g) i = Some (u, au) -> nth_error (g_nodes g) j = Some (v, av) ->
        shown et "line.color" (3 * k) = shown nt "marker.color" i /\
        shown et "line.color" (3 * k + 1) = shown nt "marker.color" j).
Proof.
  intro H. apply plot_closed in H. destruct H as [e [n0 [st [mc [mo [H0 [Nm [Hs [Hc [Ho ->]]]]]]]]]].
  apply settings_inv in Hs. destruct Hs as [col [cols [cm [S1 [S2 [S3 [S4 [S5 [S6 [S7 [S8 S9]]]]]]]]]]].
  apply new_traces in H0. destruct H0 as [na [ea [x [y [ex [ey [sz [P1 [P2 [P3 [P4 [P5 [P6 [P7 D]]]]]]]]]]]]]].
  assert (Hn : nodes_trace A CS m na = Ok n0) by (destruct D as [D|D]; tauto).
  assert (He : edges_trace A CS m ea = Ok e) by (destruct D as [D|D]; tauto).
  destruct (node_reads na n0 st Hn x y sz P4 P5 P3) as [R1 [R2 [R3 [R4 [R5 [R6 [R7 [R8 [R9 [R10 [R11 [R12 R13]]]]]]]]]]]].
  destruct (edge_reads ea e st He ex ey P6 P7) as [T1 [T2 [T3 T4]]].
  exists (edge_patches A CS m st e), (node_patches A CS st n0). split; [reflexivity|].
  set (nt := node_patches A CS st n0) in *. set (et := edge_patches A CS m st e) in *.
  split; [exact T3|]. split.
  - assert (G : forall axis i l, attr et axis = APath l -> nth_error ea i = Some l ->
      array_length et axis = Some (3 * length (edges g)) /\
      forall k u v, nth_error (edges g) k = Some (u, v) ->
        exists p q x y, has_pos m u p /\ has_pos m v q /\ nth_error p i = Some x /\ nth_error q i = Some y /\
          path_point et axis (3 * k) = Some (Some x) /\ path_point et axis (3 * k + 1) = Some (Some y) /\
          path_point et axis (3 * k + 2) = Some None).
    { intros axis i l E1 E2. unfold array_length, path_point. rewrite E1. destruct (edge_axis A m ea i l P2 E2) as [L N].
      split; [f_equal; exact L|]. exact N. }
    intros axis i I. destruct (Nat.eqb_spec dim 3) as [D3|D3].
    + destruct D as [[D _]|[_ [_ [_ [z [ez [Z1 Z2]]]]]]]; [contradiction|].
      destruct I as [E|[E|[E|[]]]]; injection E as <- <-; [apply (G _ _ ex); auto|apply (G _ _ ey); auto|apply (G _ _ ez); auto].
      apply (proj1 (T4 D3)). exact Z2.
    + destruct I as [E|[E|[]]]; injection E as <- <-; [apply (G _ _ ex); auto|apply (G _ _ ey); auto].
  - intro D3. destruct (T4 D3) as [_ [U1 [U2 [U3 U4]]]].
    destruct (edge_color_nth A m cols (st_edge A CS st) (S7 D3)) as [L N].
    destruct (agg_nth A m W col agg cols S4) as [L4 [K4 N4]].
    split; [unfold array_length; rewrite U1; f_equal; exact L|]. split; [congruence|]. split; [congruence|]. split; [congruence|].
    intros k u v i j [su iu] [sv iv] Hk Hi Hj. destruct (N k u v Hk) as [a [b [B1 [B2 [B3 B4]]]]].
    destruct (N4 i u su iu Hi) as [ca [C1 [_ C2]]]. destruct (N4 j v sv iv Hj) as [cb [C3 [_ C4]]].
    unfold shown. rewrite U1, R5, S5. split; congruence.
Qed.

Lemma color_range_shown c ns titles agg cmaps w h f (P : num A -> Prop) : plot c ns titles agg cmaps w h = Ok f ->
  strict_total_on (lt_b A) P ->
  (forall col z s ids v, column c 0 = Ok col -> In (z, (s, ids)) (g_nodes g) -> node_color col agg ids v -> P v) -> g_nodes g <> [] ->
  exists et nt lo hi, f_traces f = [et; nt] /\ attr nt "marker.cmin" = ANum lo /\ attr nt "marker.cmax" = ANum hi /\
    (exists i, shown nt "marker.color" i = Some lo) /\ (exists i, shown nt "marker.color" i = Some hi) /\
    forall i v, shown nt "marker.color" i = Some v -> lt_b A v lo = false /\ lt_b A hi v = false.
Proof.
  intros H O Ha Ne. pose proof H as H'. apply plot_closed in H. destruct H as [e [n0 [st [mc [mo [H0 [Nm [Hs [Hc [Ho ->]]]]]]]]]].
  apply settings_inv in Hs. destruct Hs as [col [cols [cm [S1 [S2 [S3 [S4 [S5 [S6 [S7 [S8 S9]]]]]]]]]]].
  apply new_traces in H0. destruct H0 as [na [ea [x [y [ex [ey [sz [P1 [P2 [P3 [P4 [P5 [P6 [P7 D]]]]]]]]]]]]]].
  assert (Hn : nodes_trace A CS m na = Ok n0) by (destruct D as [D|D]; tauto).
  destruct (node_reads na n0 st Hn x y sz P4 P5 P3) as [R1 [R2 [R3 [R4 [R5 [R6 [R7 _]]]]]]].
  destruct (agg_nth A m W col agg cols S4) as [L4 [K4 N4]].
  assert (F : Forall P (st_colors A CS st)).
  { rewrite S5. apply Forall_forall. intros v I. apply In_nth_error in I. destruct I as [k I].
    destruct (nth_error (g_nodes g) k) as [[n [s ids]]|] eqn:E.
    - destruct (N4 k n s ids E) as [v' [V1 [V2 _]]]. assert (v' = v) by congruence. subst. exact (Ha _ _ _ _ _ S3 (nth_error_In _ _ E) V2).
    - apply nth_error_None in E. apply nth_error_lt in I. rewrite map_length in I. lia. }
  assert (Nz : st_colors A CS st <> []).
  { rewrite S5. intro E. apply (f_equal (@length _)) in E. rewrite map_length, L4 in E. destruct (g_nodes g); [contradiction|discriminate]. }
  destruct (py_min_ok (lt_b A) P O _ F Nz) as [lo [E1 [I1 M1]]].
  destruct (py_max_ok (lt_b A) P _ O F Nz) as [hi [E2 [I2 M2]]].
  exists (edge_patches A CS m st e), (node_patches A CS st n0), lo, hi. split; [reflexivity|].
  rewrite R6, R7. unfold cmin, cmax. rewrite E1, E2. split; [reflexivity|]. split; [reflexivity|].
  unfold shown. rewrite R5. apply In_nth_error in I1. apply In_nth_error in I2.
  split; [exact I1|]. split; [exact I2|]. intros i v Hv. apply nth_error_In in Hv. auto.
Qed.
End Show.
