(** C42: updating a plotly figure; C48: its menus and slider (plot_plotly.py). *)
From Coq Require Import String Lia QArith.
From Verif Require Import Base BaseFacts Dict ModelArith ModelCore SpecCore.
From Verif Require Import ModelDraw ModelPlotly SpecPlot PlotlyFacts PlotlyProp PlotlyShow PlotlyUpdate PlotlyControls PlotlyEffect PropPlot.
Open Scope nat_scope.

(** ** C42: an update, on any figure and whether it succeeds or raises, changes only
    trace attributes belonging to a setting it was given, and in the layout only a
    given width or height; menus and slider of settings not given are kept. *)
Theorem C42_update_keeps_the_rest :
  forall (A : arith) CS get_colorscale plotly_cmap str_num (m : mapper_plot A) w h ns c ti agg cm (f f' : figure A CS) r,
  plot_plotly_update A CS get_colorscale plotly_cmap str_num m w h ns c ti agg cm f = (f', r) ->
  Forall2 (fun t t' => forall path, ~ (exists s, settings_given ns c ti agg cm s /\ belongs s path) ->
             attr t' path = attr t path) (f_traces f) (f_traces f') /\
  (forall path, ~ ((path = "width"%string /\ w <> None) \/ (path = "height"%string /\ h <> None)) ->
     attr (f_layout f') path = attr (f_layout f) path) /\
  (cm = CMNone -> find_menu "menu_cmap" (f_menus f') = find_menu "menu_cmap" (f_menus f)) /\
  (c = None \/ ti = TNone \/ agg = None -> find_menu "menu_color" (f_menus f') = find_menu "menu_color" (f_menus f)) /\
  (ns = NSNone -> find_slider "slider_node_size" (f_sliders f') = find_slider "slider_node_size" (f_sliders f)).
Proof. exact update_keeps. Qed.
Print Assumptions C42_update_keeps_the_rest.

(** ** C42: every setting given to a successful update takes effect. *)
Theorem C42_update_takes_effect :
  forall (A : arith) CS get_colorscale plotly_cmap str_num (m : mapper_plot A),
  well_formed (mp_graph m) ->
  forall w h ns c ti agg cm (f f' : figure A CS) e n,
  f_traces f = [e; n] -> attr e "name" = AStr "edges_trace" -> attr n "name" = AStr "nodes_trace" ->
  plot_plotly_update A CS get_colorscale plotly_cmap str_num m w h ns c ti agg cm f = (f', Ok tt) ->
  exists e' n', f_traces f' = [e'; n'] /\
    (forall z, w = Some z -> attr (f_layout f') "width" = AInt z) /\
    (forall z, h = Some z -> attr (f_layout f') "height" = AInt z) /\
    (forall l, to_node_sizes ns = Ok l -> exists s, nth_error l (length l / 2) = Some s /\
       attr n' "marker.sizeref" =
         ANum (if eq_b A s (zero A) then ofz A 1000000000 else mul A (div A (ofz A 1) s) (div A (ofz A 1) s))) /\
    (forall ca cc l, c = Some ca -> to_colors ca = Ok cc -> ti <> TNone -> to_titles ti (c_cols cc) = Ok l ->
       exists t, nth_error l 0 = Some t /\ attr n' "marker.colorbar.title.text" = AStr t) /\
    (forall ca cc a, c = Some ca -> to_colors ca = Ok cc -> agg = Some a ->
       exists col, is_column cc 0 col /\ array_length n' "marker.color" = Some (length (g_nodes (mp_graph m))) /\
         forall i z s ids, nth_error (g_nodes (mp_graph m)) i = Some (z, (s, ids)) ->
           exists color, node_color col a ids color /\ shown n' "marker.color" i = Some color /\ tooltip n' i = Some (color, z, s)) /\
    (forall l, cm <> CMNone -> to_cmaps cm = Ok l ->
       exists name cs, nth_error l 0 = Some name /\ get_colorscale name = Ok cs /\ attr n' "marker.colorscale" = AScale cs).
Proof. exact update_effect. Qed.
Print Assumptions C42_update_takes_effect.

(** ** C42: updating every setting of a figure gives the figure that plotting with
    those settings gives. *)
Theorem C42_update_all_is_plot :
  forall (A : arith) CS get_colorscale plotly_cmap str_num (m : mapper_plot A)
    c1 ns1 ti1 agg1 cm1 w1 h1 (f1 : figure A CS) c2 ns2 ti2 agg2 cm2 w2 h2 f2,
  plot_plotly A CS get_colorscale plotly_cmap str_num m c1 ns1 ti1 agg1 cm1 w1 h1 = Ok f1 ->
  plot_plotly A CS get_colorscale plotly_cmap str_num m c2 ns2 ti2 agg2 cm2 w2 h2 = Ok f2 ->
  ti2 <> TNone -> cm2 <> CMNone -> (w2 = None -> w1 = None) -> (h2 = None -> h1 = None) ->
  plot_plotly_update A CS get_colorscale plotly_cmap str_num m w2 h2 ns2 (Some c2) ti2 (Some agg2) cm2 f1 = (f2, Ok tt).
Proof. exact update_like_plot. Qed.
Print Assumptions C42_update_all_is_plot.

(** ** C42: a title without colours always raises, whatever else is given. *)
Theorem C42_title_alone_fails :
  forall (A : arith) CS get_colorscale plotly_cmap str_num (m : mapper_plot A) w h ns ti agg cm (f : figure A CS),
  ti <> TNone ->
  exists f' x, plot_plotly_update A CS get_colorscale plotly_cmap str_num m w h ns None ti agg cm f = (f', Err x).
Proof. exact title_alone_fails. Qed.
Print Assumptions C42_title_alone_fails.

(** ** C42: colours without an aggregation are ignored. *)
Theorem C42_colors_alone_ignored :
  forall (A : arith) CS get_colorscale plotly_cmap str_num (m : mapper_plot A) c (f f' : figure A CS) r,
  plot_plotly_update A CS get_colorscale plotly_cmap str_num m None None NSNone c TNone None CMNone f = (f', r) ->
  same_traces (f_traces f') (f_traces f) /\
  find_menu "menu_color" (f_menus f') = find_menu "menu_color" (f_menus f).
Proof.
  intros A CS gc pc sn m c f f' r H. apply update_keeps in H. destruct H as [H1 [_ [_ [H2 _]]]]. split; [|auto].
  unfold same_traces. clear - H1. induction H1 as [|t t' l l' Q]; constructor; [|assumption].
  intro path. apply Q. intros [s [G _]]. destruct s; cbn in G; try (destruct G as [_ G]); congruence.
Qed.
Print Assumptions C42_colors_alone_ignored.

(** ** Examples *)
Definition demo_update (w : option Z) ns c ti agg cm (f : res (figure QA string)) : res (figure QA string) :=
  match f with
  | Ok f => match plot_plotly_update QA string demo_scale demo_cmap demo_str (demo_plot 3) w None ns c ti agg cm f with
            | (f', Ok _) => Ok f'
            | (_, Err e) => Err e
            end
  | Err e => Err e
  end.
Definition two : Q := 2%Q.
Definition new_colors : colors_arg QA := CA1 (A := QA) [5; 4; 3; 2; 1]%Q.
(** Only the node size: sizeref becomes (1 / 2)^2; the colours stay. *)
Example C42_size_only :
  demo_read (demo_update None (NSNum (A := QA) two) None TNone None CMNone (demo_fig 3)) 1 ["marker.sizeref"; "marker.color"]%string =
  [ANum (A := QA) (1 # 4)%Q; ANums (A := QA) [2; 1; 2; 3; 4]%Q].
Proof.
  vm_cast_no_check (eq_refl (demo_read (demo_update None (NSNum (A := QA) two) None TNone None CMNone (demo_fig 3)) 1
    ["marker.sizeref"; "marker.color"]%string)).
Qed.
Example C42_colors_only :
  demo_read (demo_update None NSNone (Some new_colors) TNone (Some mean) CMNone (demo_fig 3)) 1 ["marker.sizeref"; "marker.color"]%string =
  [ANum (A := QA) (1 # 4)%Q; ANums (A := QA) [4; 5; 4; 3; 2]%Q].
Proof.
  vm_cast_no_check (eq_refl (demo_read (demo_update None NSNone (Some new_colors) TNone (Some mean) CMNone (demo_fig 3)) 1
    ["marker.sizeref"; "marker.color"]%string)).
Qed.
Example C42_colors_ignored :
  demo_read (demo_update None NSNone (Some new_colors) TNone None CMNone (demo_fig 3)) 1 ["marker.color"]%string =
  [ANums (A := QA) [2; 1; 2; 3; 4]%Q].
Proof.
  vm_cast_no_check (eq_refl (demo_read (demo_update None NSNone (Some new_colors) TNone None CMNone (demo_fig 3)) 1 ["marker.color"]%string)).
Qed.

(** ** C42: the title of a plotted figure cannot be updated alone. *)
Theorem C42_title_refuted :
  exists (m : mapper_plot QA) c ns ti agg cm w h f, 
    plot_plotly QA string demo_scale demo_cmap demo_str m c ns ti agg cm w h = Ok f /\
    forall t, exists f' x,
      plot_plotly_update QA string demo_scale demo_cmap demo_str m None None NSNone None (TStr t) None CMNone f = (f', Err x).
Proof.
  destruct (demo_fig 3) as [f|e] eqn:E; [|exfalso; apply (f_equal is_ok) in E; vm_compute in E; discriminate].
  eexists _, _, _, _, _, _, _, _, f. split; [exact E|]. intro t. apply title_alone_fails. discriminate.
Qed.
Print Assumptions C42_title_refuted.

(** ** C42: after an update of the colours with no title, the entries of the colour
    menu still show the old colours: choosing the active one undoes the update. *)
Definition demo_menu (f : res (figure QA string)) (i : nat) : option (button QA string) :=
  match f with
  | Ok f => match find_menu "menu_color" (f_menus f) with Some mo => nth_error (m_buttons mo) i | None => None end
  | Err _ => None
  end.
Definition demo_choose (f : res (figure QA string)) (i : nat) : res (figure QA string) :=
  match f, demo_menu f i with Ok f, Some b => Ok (restyle b f) | _, _ => Err ValueError end.
Theorem C42_stale_color_menu_refuted :
  exists (m : mapper_plot QA) c ns ti agg cm w h f c' agg' f' mo b n n' n'',
    plot_plotly QA string demo_scale demo_cmap demo_str m c ns ti agg cm w h = Ok f /\
    plot_plotly_update QA string demo_scale demo_cmap demo_str m None None NSNone (Some c') TNone (Some agg') CMNone f = (f', Ok tt) /\
    find_menu "menu_color" (f_menus f') = Some mo /\ nth_error (m_buttons mo) (m_active mo) = Some b /\
    nth_error (f_traces f) 1 = Some n /\ nth_error (f_traces f') 1 = Some n' /\ nth_error (f_traces (restyle b f')) 1 = Some n'' /\
    attr n'' "marker.color" = attr n "marker.color" /\ attr n' "marker.color" <> attr n "marker.color".
Proof.
  destruct (demo_fig 3) as [f|e] eqn:E; [|exfalso; apply (f_equal is_ok) in E; vm_compute in E; discriminate].
  destruct (plot_plotly_update QA string demo_scale demo_cmap demo_str (demo_plot 3) None None NSNone (Some new_colors) TNone (Some mean) CMNone f)
    as [f' r] eqn:E'.
  assert (D : demo_update None NSNone (Some new_colors) TNone (Some mean) CMNone (demo_fig 3) = match r with Ok _ => Ok f' | Err e => Err e end)
    by (rewrite E; cbn [demo_update]; rewrite E'; reflexivity).
  destruct r as [[]|e];
    [|exfalso; apply (f_equal is_ok) in D; vm_compute in D; discriminate].
  assert (Q0 : demo_read (demo_fig 3) 1 ["marker.color"]%string = [ANums (A := QA) [2; 1; 2; 3; 4]%Q])
    by vm_cast_no_check (eq_refl (demo_read (demo_fig 3) 1 ["marker.color"]%string)).
  assert (Q1 : demo_read (demo_update None NSNone (Some new_colors) TNone (Some mean) CMNone (demo_fig 3)) 1 ["marker.color"]%string =
               [ANums (A := QA) [4; 5; 4; 3; 2]%Q])
    by vm_cast_no_check (eq_refl (demo_read (demo_update None NSNone (Some new_colors) TNone (Some mean) CMNone (demo_fig 3)) 1 ["marker.color"]%string)).
  assert (Q2 : demo_read (demo_choose (demo_update None NSNone (Some new_colors) TNone (Some mean) CMNone (demo_fig 3)) 0) 1 ["marker.color"]%string =
               [ANums (A := QA) [2; 1; 2; 3; 4]%Q])
    by vm_cast_no_check (eq_refl (demo_read (demo_choose (demo_update None NSNone (Some new_colors) TNone (Some mean) CMNone (demo_fig 3)) 0) 1 ["marker.color"]%string)).
  assert (Q3 : (match demo_update None NSNone (Some new_colors) TNone (Some mean) CMNone (demo_fig 3) with
                | Ok f => option_map m_active (find_menu "menu_color" (f_menus f)) | Err _ => None end) = Some 0)
    by (vm_compute; reflexivity).
  rewrite D in Q1, Q2, Q3. rewrite E in Q0. unfold demo_choose, demo_menu in Q2. cbn [demo_read] in *.
  destruct (find_menu "menu_color" (f_menus f')) as [mo|] eqn:Em; [|discriminate]. injection Q3 as Q3.
  destruct (nth_error (m_buttons mo) 0) as [b|] eqn:Eb; [|discriminate].
  destruct (nth_error (f_traces f) 1) as [n|] eqn:En; [|discriminate].
  destruct (nth_error (f_traces f') 1) as [n'|] eqn:En'; [|discriminate].
  cbn [demo_read] in Q2. destruct (nth_error (f_traces (restyle b f')) 1) as [n''|] eqn:En''; [|discriminate].
  injection Q0 as Q0. injection Q1 as Q1. injection Q2 as Q2.
  eexists _, _, _, _, _, _, _, _, f, _, _, f', mo, b, n, n', n''. split; [exact E|]. split; [exact E'|]. split; [exact Em|].
  rewrite Q3. split; [exact Eb|]. split; [exact En|]. split; [exact En'|]. split; [exact En''|]. rewrite Q0, Q1, Q2. split; [reflexivity|discriminate].
Qed.
Print Assumptions C42_stale_color_menu_refuted.

(** ** C42: menus and sliders a user added to the figure are lost in any update. *)
Theorem C42_other_menus_refuted :
  exists (m : mapper_plot QA) (f f' : figure QA string) mo,
    find_menu "mine" (f_menus f) = Some mo /\
    plot_plotly_update QA string demo_scale demo_cmap demo_str m (Some 500%Z) None NSNone None TNone None CMNone f = (f', Ok tt) /\
    find_menu "mine" (f_menus f') = None.
Proof.
  exists (demo_plot 3), (mkfig [] [] [mkmenu "mine" [] 0] []). eexists _, (mkmenu "mine" [] 0).
  split; [reflexivity|]. split; reflexivity.
Qed.
Print Assumptions C42_other_menus_refuted.

(** ** C48: choosing the [i]-th entry of the colour menu of a plotted figure makes
    its traces those of plotting the [i]-th column of colours with the [i]-th title. *)
Theorem C48_color_menu :
  forall (A : arith) CS get_colorscale plotly_cmap str_num (m : mapper_plot A) c ns ti agg cm w h (f : figure A CS) cc titles,
  mp_dim m = 2 \/ mp_dim m = 3 ->
  plot_plotly A CS get_colorscale plotly_cmap str_num m c ns ti agg cm w h = Ok f ->
  to_colors c = Ok cc -> to_titles ti (c_cols cc) = Ok titles ->
  exists mo, find_menu "menu_color" (f_menus f) = Some mo /\
    length (m_buttons mo) = (if 1 <? c_cols cc then c_cols cc else 0) /\
    (forall i b, nth_error (m_buttons mo) i = Some b ->
       exists col t f', is_column cc i col /\ nth_error titles i = Some t /\ b_label b = t /\ b_method b = "restyle"%string /\
         plot_plotly A CS get_colorscale plotly_cmap str_num m (CA1 col) ns (TStr t) agg cm w h = Ok f' /\
         same_traces (f_traces (restyle b f)) (f_traces f')) /\
    (1 < c_cols cc -> exists b, nth_error (m_buttons mo) (m_active mo) = Some b /\ same_traces (f_traces (restyle b f)) (f_traces f)).
Proof.
  intros A CS gc pc sn m c ns ti agg cm w h f cc titles D H Hc Ht. apply plot_plotly_inv in H.
  destruct H as [cmaps [cc' [titles' [sizes [H1 [H2 [H3 [H4 H]]]]]]]]. rewrite Hc in H2. injection H2 as <-. rewrite Ht in H3. injection H3 as <-.
  pose proof (proj1 (plot_closed A CS gc pc sn m _ _ _ _ _ _ _ _) H) as [e [n [st [mc [mo [_ [_ [_ [E3 [E4 Ef]]]]]]]]]]. subst f.
  assert (N1 : m_name mc = "menu_cmap"%string) by (apply cmap_menu_name in E3; exact E3).
  assert (N2 : m_name mo = "menu_color"%string) by (apply color_menu_name in E4; exact E4).
  destruct (find_controls A CS sn m e n st mc mo sizes w h N1 N2) as [_ [F _]]. exists mo. split; [exact F|].
  destruct (color_entries A CS m _ _ _ _ E4) as [L _]. split; [exact L|]. split.
  - intros i b Eb. destruct (color_entry A CS gc pc sn m _ _ _ _ _ _ _ _ _ _ _ D H F Eb) as [col [t [f' [K1 [K2 [K3 [K4 [K5 K6]]]]]]]].
    exists col, t, f'. repeat (split; [assumption|]). split; [|exact K6].
    rewrite (plot_plotly_intro A CS gc pc sn m (CA1 col) ns (TStr t) agg cm w h cmaps (mkcolors (map (fun x => [x]) col) 1) [t] sizes); auto.
  - intro C1. exact (active_color A CS gc pc sn m _ _ _ _ _ _ _ _ _ D H F C1).
Qed.
Print Assumptions C48_color_menu.

(** ** C48: the [i]-th step of the slider makes the traces those of plotting with the
    [i]-th node size; the step shown at first is the one drawn. *)
Theorem C48_size_slider :
  forall (A : arith) CS get_colorscale plotly_cmap str_num (m : mapper_plot A) c ns ti agg cm w h (f : figure A CS) sizes,
  plot_plotly A CS get_colorscale plotly_cmap str_num m c ns ti agg cm w h = Ok f ->
  to_node_sizes ns = Ok sizes ->
  exists sl, find_slider "slider_node_size" (f_sliders f) = Some sl /\ length (s_steps sl) = length sizes /\
    (forall i b, nth_error (s_steps sl) i = Some b ->
       exists s f', nth_error sizes i = Some s /\ b_label b = str_num s /\ b_method b = "restyle"%string /\
         plot_plotly A CS get_colorscale plotly_cmap str_num m c (NSNum s) ti agg cm w h = Ok f' /\
         same_traces (f_traces (restyle b f)) (f_traces f')) /\
    exists b, nth_error (s_steps sl) (s_active sl) = Some b /\ same_traces (f_traces (restyle b f)) (f_traces f).
Proof.
  intros A CS gc pc sn m c ns ti agg cm w h f sizes H Hs. apply plot_plotly_inv in H.
  destruct H as [cmaps [cc [titles [sizes' [H1 [H2 [H3 [H4 H]]]]]]]]. rewrite Hs in H4. injection H4 as <-.
  pose proof (proj1 (plot_closed A CS gc pc sn m _ _ _ _ _ _ _ _) H) as [e [n [st [mc [mo [_ [_ [_ [E3 [E4 Ef]]]]]]]]]]. subst f.
  assert (N1 : m_name mc = "menu_cmap"%string) by (apply cmap_menu_name in E3; exact E3).
  assert (N2 : m_name mo = "menu_color"%string) by (apply color_menu_name in E4; exact E4).
  destruct (find_controls A CS sn m e n st mc mo sizes w h N1 N2) as [_ [_ F]]. eexists. split; [exact F|].
  split; [cbn; apply map_length|]. split; [|exact (active_size A CS gc pc sn m _ _ _ _ _ _ _ _ _ H F)].
  intros i b Eb. destruct (size_step_shown A CS gc pc sn m _ _ _ _ _ _ _ _ _ _ _ H F Eb) as [s [f' [K1 [K2 [K3 [K4 K5]]]]]].
  exists s, f'. repeat (split; [assumption|]). split; [|exact K5].
  rewrite (plot_plotly_intro A CS gc pc sn m c (NSNum s) ti agg cm w h cmaps cc titles [s]); auto.
Qed.
Print Assumptions C48_size_slider.

(** ** C48: the entries of the colour scale menu are the known ones among the given
    scales; choosing one makes the traces those of plotting with it. (In 2d the edge
    trace, which has no markers, gets two marker attributes more.) *)
Theorem C48_cmap_menu :
  forall (A : arith) CS get_colorscale plotly_cmap str_num (m : mapper_plot A) c ns ti agg cm w h (f : figure A CS) cmaps,
  mp_dim m = 2 \/ mp_dim m = 3 ->
  plot_plotly A CS get_colorscale plotly_cmap str_num m c ns ti agg cm w h = Ok f ->
  to_cmaps cm = Ok cmaps ->
  let names := somes (map plotly_cmap cmaps) in
  exists mc, find_menu "menu_cmap" (f_menus f) = Some mc /\
    length (m_buttons mc) = (if 1 <? length names then length names else 0) /\
    forall i b, nth_error (m_buttons mc) i = Some b ->
      exists name f' et nt et' nt', nth_error names i = Some name /\ b_label b = name /\ b_method b = "restyle"%string /\
        plot_plotly A CS get_colorscale plotly_cmap str_num m c ns ti agg (CMStr name) w h = Ok f' /\
        f_traces (restyle b f) = [et; nt] /\ f_traces f' = [et'; nt'] /\
        (forall path, attr nt path = attr nt' path) /\
        (forall path, ~ (mp_dim m = 2 /\ (path = "marker.colorscale"%string \/ path = "marker.line.colorscale"%string)) ->
           attr et path = attr et' path).
Proof.
  intros A CS gc pc sn m c ns ti agg cm w h f cmaps D H Hc names. apply plot_plotly_inv in H.
  destruct H as [cmaps' [cc [titles [sizes [H1 [H2 [H3 [H4 H]]]]]]]]. rewrite Hc in H1. injection H1 as <-.
  pose proof (proj1 (plot_closed A CS gc pc sn m _ _ _ _ _ _ _ _) H) as [e [n [st [mc [mo [_ [_ [_ [E3 [E4 Ef]]]]]]]]]]. subst f.
  assert (N1 : m_name mc = "menu_cmap"%string) by (apply cmap_menu_name in E3; exact E3).
  assert (N2 : m_name mo = "menu_color"%string) by (apply color_menu_name in E4; exact E4).
  destruct (find_controls A CS sn m e n st mc mo sizes w h N1 N2) as [F _]. exists mc. split; [exact F|].
  destruct (cmap_entries A CS gc pc m _ _ E3) as [L _]. split; [exact L|].
  intros i b Eb. destruct (cmap_entry A CS gc pc sn m _ _ _ _ _ _ _ _ _ _ _ D H F Eb) as [name [f' [et [nt [et' [nt' [K1 [K2 [K3 [K4 K5]]]]]]]]]].
  exists name, f', et, nt, et', nt'. repeat (split; [assumption|]). split; [|exact K5].
  rewrite (plot_plotly_intro A CS gc pc sn m c ns ti agg (CMStr name) w h [name] cc titles sizes); auto.
Qed.
Print Assumptions C48_cmap_menu.

Example C48_demo_second_column :
  demo_read (demo_choose (demo_fig 3) 1) 1 ["marker.color"; "marker.cmax"; "marker.colorbar.title.text"]%string =
  [ANums (A := QA) [20; 10; 20; 30; 40]%Q; ANum (A := QA) 40%Q; AStr "b"%string].
Proof.
  vm_cast_no_check (eq_refl (demo_read (demo_choose (demo_fig 3) 1) 1 ["marker.color"; "marker.cmax"; "marker.colorbar.title.text"]%string)).
Qed.

(** ** C48: the first scale is drawn at first even if it is not in the menu, whose
    first entry is then the first known one: the menu does not show the scale drawn. *)
Definition odd_fig : res (figure QA string) :=
  plot_plotly QA string (fun s => Ok s) demo_cmap demo_str (demo_plot 2) (CA2 demo_colors) (NSNum (A := QA) two)
    TNone mean (CMList ["mine"; "Viridis"; "Jet"]%string) None None.
Theorem C48_first_scale_refuted :
  exists (m : mapper_plot QA) c ns ti agg cm w h (f : figure QA string) mc b n n',
    plot_plotly QA string (fun s => Ok s) demo_cmap demo_str m c ns ti agg cm w h = Ok f /\
    find_menu "menu_cmap" (f_menus f) = Some mc /\ nth_error (m_buttons mc) (m_active mc) = Some b /\
    nth_error (f_traces f) 1 = Some n /\ nth_error (f_traces (restyle b f)) 1 = Some n' /\
    attr n "marker.colorscale" <> attr n' "marker.colorscale".
Proof.
  destruct odd_fig as [f|e] eqn:E; [|exfalso; apply (f_equal is_ok) in E; vm_compute in E; discriminate].
  pose (q := fun f : figure QA string =>
    match find_menu "menu_cmap" (f_menus f) with
    | Some mc => match nth_error (m_buttons mc) (m_active mc), nth_error (f_traces f) 1 with
                 | Some b, Some n => match nth_error (f_traces (restyle b f)) 1 with
                                     | Some n' => [attr n "marker.colorscale"; attr n' "marker.colorscale"]
                                     | None => []
                                     end
                 | _, _ => []
                 end
    | None => []
    end).
  assert (Q : match odd_fig with Ok f => q f | Err _ => [] end = [AScale (A := QA) "mine"%string; AScale "Viridis"%string])
    by vm_cast_no_check (eq_refl [AScale (A := QA) "mine"%string; AScale "Viridis"%string]).
  rewrite E in Q. unfold q in Q. destruct (find_menu "menu_cmap" (f_menus f)) as [mc|] eqn:Em; [|discriminate].
  destruct (nth_error (m_buttons mc) (m_active mc)) as [b|] eqn:Eb; [|discriminate].
  destruct (nth_error (f_traces f) 1) as [n|] eqn:En; [|discriminate].
  destruct (nth_error (f_traces (restyle b f)) 1) as [n'|] eqn:En'; [|discriminate]. injection Q as Q1 Q2.
  eexists _, _, _, _, _, _, _, _, f, mc, b, n, n'. split; [exact E|]. split; [exact Em|]. split; [exact Eb|].
  split; [exact En|]. split; [exact En'|]. rewrite Q1, Q2. discriminate.
Qed.
Print Assumptions C48_first_scale_refuted.
