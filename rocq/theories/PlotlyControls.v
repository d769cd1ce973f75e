(** Menus and sliders of plotly figures, single settings, and when plotting succeeds. *)
From Coq Require Import String.
From Verif Require Import Base BaseFacts Dict DictFacts ModelArith ModelCore SpecCore CoreLabels CoreGraph CoreProp UnionFindProp.
From Verif Require Import ModelDraw ModelPlotly SpecPlot DrawFacts PlotlyFacts PlotlyProp PlotlyShow PlotlyUpdate.
Open Scope nat_scope.

Ltac reads_but := 
  let path := fresh "path" in let N := fresh "N" in intros path N;
  match goal with |- attr ?t path = attr ?t' path =>
    let I := fresh "I" in
    destruct (in_dec string_dec path (map fst t ++ map fst t')) as [I|I];
    [vm_compute in I; repeat (destruct I as [<-|I]; [first [vm_compute; reflexivity | exfalso; apply N; vm_compute; tauto]|]); destruct I
    |rewrite in_app_iff in I; rewrite (attr_absent t), (attr_absent t') by tauto; reflexivity]
  end.
Ltac reads_all := apply same_reads; let k := fresh "k" in let I := fresh "I" in intros k I; vm_compute in I;
  repeat (destruct I as [<-|I]; [vm_compute; reflexivity|]); destruct I.

Section Controls.
Variable A : arith.
Variable CS : Type.
Variable get_colorscale : string -> res CS.
Variable plotly_cmap : string -> option string.
Variable str_num : num A -> string.
Variable m : mapper_plot A.
Notation g := (mp_graph m).
Notation dim := (mp_dim m).
Notation figure := (figure A CS).
Notation attrs := (attrs A CS).
Notation plot := (plot A CS get_colorscale plotly_cmap str_num m).
Notation plot_plotly := (plot_plotly A CS get_colorscale plotly_cmap str_num m).
Notation settings_of := (settings_of A CS get_colorscale m).
Notation cmap_menu := (cmap_menu A CS get_colorscale plotly_cmap m).
Notation color_menu := (color_menu A CS m).
Notation plotted := (plotted A CS str_num m).

Lemma plot_plotly_inv c ns ti agg cm w h f : plot_plotly c ns ti agg cm w h = Ok f ->
  exists cmaps cc titles sizes, to_cmaps cm = Ok cmaps /\ to_colors c = Ok cc /\ to_titles ti (c_cols cc) = Ok titles /\
    to_node_sizes ns = Ok sizes /\ plot cc sizes titles agg cmaps w h = Ok f.
Proof.
  unfold ModelPlotly.plot_plotly. intro H.
  apply bind_ok in H. destruct H as [cmaps [X1 H]]. apply bind_ok in H. destruct H as [cc [X2 H]].
  apply bind_ok in H. destruct H as [titles [X3 H]]. apply bind_ok in H. destruct H as [sizes [X4 H]].
  exists cmaps, cc, titles, sizes. auto.
Qed.
Lemma plot_plotly_intro c ns ti agg cm w h cmaps cc titles sizes :
  to_cmaps cm = Ok cmaps -> to_colors c = Ok cc -> to_titles ti (c_cols cc) = Ok titles -> to_node_sizes ns = Ok sizes ->
  plot_plotly c ns ti agg cm w h = plot cc sizes titles agg cmaps w h.
Proof. intros X1 X2 X3 X4. unfold ModelPlotly.plot_plotly. rewrite X1. cbn [bind]. rewrite X2. cbn [bind]. rewrite X3. cbn [bind]. rewrite X4. reflexivity. Qed.

Lemma find_controls e n st mc mo ns w h : m_name mc = "menu_cmap"%string -> m_name mo = "menu_color"%string ->
  find_menu "menu_cmap" (f_menus (plotted e n st mc mo ns w h)) = Some mc /\
  find_menu "menu_color" (f_menus (plotted e n st mc mo ns w h)) = Some mo /\
  find_slider "slider_node_size" (f_sliders (plotted e n st mc mo ns w h)) = Some (ui_slider_node_size A CS str_num ns).
Proof. intros N1 N2. cbn. rewrite N1, N2. repeat split. Qed.

(** *** Colour entries *)
Lemma color_entries c titles agg mo : color_menu c titles agg = Ok mo ->
  length (m_buttons mo) = (if 1 <? c_cols c then c_cols c else 0) /\ m_active mo = 0 /\
  forall i b, nth_error (m_buttons mo) i = Some b -> i < c_cols c /\
    exists t args, nth_error titles i = Some t /\ update_colors A CS m c titles agg i = Ok args /\ b = mkbutton t "restyle" args (target_traces A m).
Proof.
  unfold PlotlyProp.color_menu, ui_menu_color. intro H. apply bind_ok in H. destruct H as [bs [H E]]. injection E as <-. cbn [m_buttons m_active].
  destruct (1 <? c_cols c).
  - apply map_res_nth in H. destruct H as [L N]. rewrite seq_length in L. split; [exact L|]. split; [reflexivity|]. intros i b E.
    assert (I : i < c_cols c) by (rewrite <- L; eapply nth_error_lt; eauto). split; [exact I|].
    destruct (N i i) as [b' [E' H]]; [rewrite (nth_error_nth' _ 0) by (rewrite seq_length; exact I); rewrite seq_nth by exact I; reflexivity|].
    rewrite E in E'. injection E' as <-. apply bind_ok in H. destruct H as [t [H1 H]]. apply rd_ok in H1.
    apply bind_ok in H. destruct H as [args [H2 H]]. injection H as <-. exists t, args. auto.
  - injection H as <-. split; [reflexivity|]. split; [reflexivity|]. intros [|i] b E; discriminate.
Qed.

Lemma column_single (col : list (num A)) : column (mkcolors (map (fun x => [x]) col) 1) 0 = Ok col.
Proof.
  unfold column. cbn [c_cols c_rows]. cbn [Nat.ltb Nat.leb]. induction col as [|x col IH]; [reflexivity|].
  cbn [map map_res rd nth_error bind]. rewrite IH. reflexivity.
Qed.

Lemma color_entry c ns titles agg cmaps w h f mo i b : dim = 2 \/ dim = 3 ->
  plot c ns titles agg cmaps w h = Ok f -> find_menu "menu_color" (f_menus f) = Some mo ->
  nth_error (m_buttons mo) i = Some b ->
  exists col t f', is_column c i col /\ nth_error titles i = Some t /\ b_label b = t /\ b_method b = "restyle"%string /\
    plot (mkcolors (map (fun x => [x]) col) 1) ns [t] agg cmaps w h = Ok f' /\ same_traces (f_traces (restyle b f)) (f_traces f').
Proof.
  intros D H Fm Eb. apply plot_closed in H. destruct H as [e [n [st [mc [mo' [B1 [B2 [B3 [B4 [B5 ->]]]]]]]]]].
  destruct (find_controls e n st mc mo' ns w h (cmap_menu_name _ _ _ _ _ _ _ B4) (color_menu_name _ _ _ _ _ _ _ B5)) as [_ [F2 _]].
  rewrite F2 in Fm. injection Fm as ->. destruct (color_entries _ _ _ _ B5) as [_ [_ Q]]. destruct (Q i b Eb) as [Ii [t [args [Et [Ea ->]]]]].
  pose proof Ea as Ea'. unfold update_colors in Ea'. apply bind_ok in Ea'. destruct Ea' as [col [C1 Ea']].
  apply bind_ok in Ea'. destruct Ea' as [cols [C2 Ea']]. apply bind_ok in Ea'. destruct Ea' as [txt [C3 Ea']].
  apply bind_ok in Ea'. destruct Ea' as [t' [C4 Ea']]. apply rd_ok in C4. rewrite Et in C4. injection C4 as <-.
  assert (S : exists ec st', (dim = 3 -> edge_colors A m cols = Ok ec) /\ st' = mkst A CS t (st_size A CS st) (map snd cols) txt ec (st_scale A CS st) /\
    settings_of [t] ns (mkcolors (map (fun x => [x]) col) 1) agg cmaps = Ok st').
  { destruct (settings_inv _ _ _ _ _ _ _ _ _ _ B3) as [col0 [cols0 [cm0 [S1 [S2 [S3 [S4 [S5 [S6 [S7 [S8 S9]]]]]]]]]]].
    apply (proj2 (rd_ok _ _ _)) in S2. apply (proj2 (rd_ok _ _ _)) in S8. unfold PlotlyProp.settings_of.
    rewrite S2, column_single. cbn [rd nth_error bind]. rewrite C2. cbn [bind]. rewrite C3. cbn [bind].
    destruct D as [D|D]; rewrite D in *; cbn [Nat.eqb] in *.
    - cbn [bind]. rewrite S8. cbn [bind]. rewrite S9. cbn [bind]. eexists _, _. split; [discriminate|]. split; reflexivity.
    - apply bind_ok in Ea'. destruct Ea' as [ec [C5 _]]. rewrite C5. cbn [bind]. rewrite S8. cbn [bind]. rewrite S9. cbn [bind].
      eexists _, _. split; [auto|]. split; reflexivity. }
  destruct S as [ec [st' [Sec [Est Sst]]]].
  exists col, t, (plotted e n st' mc (mkmenu "menu_color" [] 0) ns w h).
  split; [apply column_spec; exact C1|]. split; [exact Et|]. split; [reflexivity|]. split; [reflexivity|]. split.
  - apply plot_closed. exists e, n, st', mc, (mkmenu "menu_color" [] 0). repeat (split; [assumption|]). split; reflexivity.
  - unfold same_traces, restyle, PlotlyProp.plotted. cbn [f_traces patch_traces].
    apply traces_explicit in B1. destruct B1 as [x [y [ex [ey [sz [z [ez [H1 [H2 H3]]]]]]]]].
    unfold edges_trace in H1. unfold nodes_trace in H2. rewrite H3 in H2. cbn [rd nth_error bind] in H1, H2.
    unfold edge_patches, target_traces. destruct D as [D|D]; rewrite D in *; cbn [Nat.eqb] in *.
    + injection Ea' as <-. injection H1 as <-. injection H2 as <-. subst st'.
      constructor; [|constructor; [|constructor]]; reads_all.
    + rewrite (Sec eq_refl) in Ea'. cbn [bind] in Ea'. injection Ea' as <-. injection H1 as <-. injection H2 as <-. subst st'.
      constructor; [|constructor; [|constructor]]; reads_all.
Qed.

(** *** Node sizes *)
Lemma size_step_shown c ns titles agg cmaps w h f sl i b : 
  plot c ns titles agg cmaps w h = Ok f -> find_slider "slider_node_size" (f_sliders f) = Some sl ->
  nth_error (s_steps sl) i = Some b ->
  exists s f', nth_error ns i = Some s /\ b_label b = str_num s /\ b_method b = "restyle"%string /\
    plot c [s] titles agg cmaps w h = Ok f' /\ same_traces (f_traces (restyle b f)) (f_traces f').
Proof.
  intros H Fm Eb. apply plot_closed in H. destruct H as [e [n [st [mc [mo [B1 [B2 [B3 [B4 [B5 ->]]]]]]]]]].
  destruct (find_controls e n st mc mo ns w h (cmap_menu_name _ _ _ _ _ _ _ B4) (color_menu_name _ _ _ _ _ _ _ B5)) as [_ [_ F2]].
  rewrite F2 in Fm. injection Fm as <-. cbn [ui_slider_node_size s_steps] in Eb. rewrite nth_error_map in Eb.
  destruct (nth_error ns i) as [s|]; [|discriminate]. cbn [option_map] in Eb. injection Eb as <-.
  destruct (settings_inv _ _ _ _ _ _ _ _ _ _ B3) as [col0 [cols0 [cm0 [S1 [S2 [S3 [S4 [S5 [S6 [S7 [S8 S9]]]]]]]]]]].
  set (st' := mkst A CS (st_title A CS st) s (st_colors A CS st) (st_text A CS st) (st_edge A CS st) (st_scale A CS st)).
  assert (Sst : settings_of titles [s] c agg cmaps = Ok st').
  { revert B3. unfold PlotlyProp.settings_of. intro B3.
    apply bind_ok in B3. destruct B3 as [t0 [K0 B3]]. rewrite K0. cbn [bind length]. apply bind_ok in B3. destruct B3 as [s0 [_ B3]].
    change (1 / 2) with 0. cbn [rd nth_error bind].
    apply bind_ok in B3. destruct B3 as [x1 [K1 B3]]. rewrite K1. cbn [bind].
    apply bind_ok in B3. destruct B3 as [x2 [K2 B3]]. rewrite K2. cbn [bind].
    apply bind_ok in B3. destruct B3 as [x3 [K3 B3]]. rewrite K3. cbn [bind].
    apply bind_ok in B3. destruct B3 as [x4 [K4 B3]]. rewrite K4. cbn [bind].
    apply bind_ok in B3. destruct B3 as [x5 [K5 B3]]. rewrite K5. cbn [bind].
    apply bind_ok in B3. destruct B3 as [x6 [K6 B3]]. rewrite K6. cbn [bind].
    unfold st'. injection B3 as <-. reflexivity. }
  exists s, (plotted e n st' mc mo [s] w h).
  split; [reflexivity|]. split; [reflexivity|]. split; [reflexivity|]. split.
  - apply plot_closed. exists e, n, st', mc, mo. repeat (split; [assumption|]). reflexivity.
  - unfold same_traces, restyle, PlotlyProp.plotted. cbn [f_traces patch_traces].
    apply traces_explicit in B1. destruct B1 as [x [y [ex [ey [sz [z [ez [H1 [H2 H3]]]]]]]]].
    unfold edges_trace in H1. unfold nodes_trace in H2. rewrite H3 in H2. cbn [rd nth_error bind] in H1, H2.
    unfold edge_patches. destruct (dim =? 3); [|destruct (dim =? 2)]; injection H1 as <-; injection H2 as <-; 
      (constructor; [|constructor; [|constructor]]); reads_all.
Qed.

(** *** Colour scales *)
Lemma cmap_entries cmaps mc : cmap_menu cmaps = Ok mc ->
  let names := somes (map plotly_cmap cmaps) in
  length (m_buttons mc) = (if 1 <? length names then length names else 0) /\ m_active mc = 0 /\
  forall i b, nth_error (m_buttons mc) i = Some b ->
    exists name cs, nth_error names i = Some name /\ get_colorscale name = Ok cs /\
      b = mkbutton name "restyle" (update_cmap A CS m cs) (target_traces A m).
Proof.
  unfold PlotlyProp.cmap_menu, ui_menu_cmap. intro H. apply bind_ok in H. destruct H as [bs [H E]]. injection E as <-. cbn [m_buttons m_active]. cbv zeta.
  destruct (1 <? length (somes (map plotly_cmap cmaps))).
  - apply map_res_nth in H. destruct H as [L N]. split; [exact L|]. split; [reflexivity|]. intros i b E.
    assert (I : i < length (somes (map plotly_cmap cmaps))) by (rewrite <- L; eapply nth_error_lt; eauto).
    destruct (nth_error (somes (map plotly_cmap cmaps)) i) as [name|] eqn:En; [|apply nth_error_None in En; lia].
    destruct (N i name En) as [b' [E' H]]. rewrite E in E'. injection E' as <-. apply bind_ok in H. destruct H as [cs [H1 H]]. injection H as <-.
    exists name, cs. auto.
  - injection H as <-. split; [reflexivity|]. split; [reflexivity|]. intros [|i] b E; discriminate.
Qed.
Lemma cmap_menu_single name : exists mc, cmap_menu [name] = Ok mc.
Proof. unfold PlotlyProp.cmap_menu, ui_menu_cmap. cbn [map]. destruct (plotly_cmap name); cbn; eauto. Qed.

Lemma settings_scale titles ns c agg cmaps st name cs : settings_of titles ns c agg cmaps = Ok st -> get_colorscale name = Ok cs ->
  settings_of titles ns c agg [name] = Ok (mkst A CS (st_title A CS st) (st_size A CS st) (st_colors A CS st) (st_text A CS st) (st_edge A CS st) cs).
Proof.
  intros B3 Hc. revert B3. unfold PlotlyProp.settings_of. intro B3.
  apply bind_ok in B3. destruct B3 as [t0 [K0 B3]]. rewrite K0. cbn [bind]. apply bind_ok in B3. destruct B3 as [s0 [K B3]]. rewrite K. cbn [bind].
  apply bind_ok in B3. destruct B3 as [x1 [K1 B3]]. rewrite K1. cbn [bind].
  apply bind_ok in B3. destruct B3 as [x2 [K2 B3]]. rewrite K2. cbn [bind].
  apply bind_ok in B3. destruct B3 as [x3 [K3 B3]]. rewrite K3. cbn [bind].
  apply bind_ok in B3. destruct B3 as [x4 [K4 B3]]. rewrite K4. cbn [bind rd nth_error]. rewrite Hc. cbn [bind].
  apply bind_ok in B3. destruct B3 as [x5 [K5 B3]]. apply bind_ok in B3. destruct B3 as [x6 [K6 B3]].
  injection B3 as <-. reflexivity.
Qed.

Lemma cmap_entry c ns titles agg cmaps w h f mc i b : dim = 2 \/ dim = 3 ->
  plot c ns titles agg cmaps w h = Ok f -> find_menu "menu_cmap" (f_menus f) = Some mc ->
  nth_error (m_buttons mc) i = Some b ->
  exists name f' et nt et' nt', nth_error (somes (map plotly_cmap cmaps)) i = Some name /\ b_label b = name /\ b_method b = "restyle"%string /\
    plot c ns titles agg [name] w h = Ok f' /\ f_traces (restyle b f) = [et; nt] /\ f_traces f' = [et'; nt'] /\
    (forall path, attr nt path = attr nt' path) /\
    (forall path, ~ (dim = 2 /\ (path = "marker.colorscale"%string \/ path = "marker.line.colorscale"%string)) -> attr et path = attr et' path).
Proof.
  intros D H Fm Eb. apply plot_closed in H. destruct H as [e [n [st [mc' [mo [B1 [B2 [B3 [B4 [B5 ->]]]]]]]]]].
  destruct (find_controls e n st mc' mo ns w h (cmap_menu_name _ _ _ _ _ _ _ B4) (color_menu_name _ _ _ _ _ _ _ B5)) as [F2 _].
  rewrite F2 in Fm. injection Fm as ->. destruct (cmap_entries _ _ B4) as [_ [_ Q]]. destruct (Q i b Eb) as [name [cs [En [Hc ->]]]].
  destruct (cmap_menu_single name) as [mc1 M1].
  pose proof (settings_scale _ _ _ _ _ _ name cs B3 Hc) as Sst. set (st' := mkst A CS (st_title A CS st) (st_size A CS st) (st_colors A CS st) (st_text A CS st) (st_edge A CS st) cs) in *.
  exists name, (plotted e n st' mc1 mo ns w h).
  unfold restyle, PlotlyProp.plotted at 2 3. cbn [f_traces patch_traces]. eexists _, _, _, _.
  split; [exact En|]. split; [reflexivity|]. split; [reflexivity|]. split.
  { apply plot_closed. exists e, n, st', mc1, mo. repeat (split; [assumption|]). reflexivity. }
  split; [reflexivity|]. split; [reflexivity|].
  apply traces_explicit in B1. destruct B1 as [x [y [ex [ey [sz [z [ez [H1 [H2 H3]]]]]]]]].
  unfold edges_trace in H1. unfold nodes_trace in H2. rewrite H3 in H2. cbn [rd nth_error bind] in H1, H2.
  unfold edge_patches, target_traces, update_cmap. destruct D as [D|D]; rewrite D in *; cbn [Nat.eqb] in *.
  - injection H1 as <-. injection H2 as <-. split; [reads_all|].
    intros path N. assert (N' : ~ (path = "marker.colorscale"%string \/ path = "marker.line.colorscale"%string)) by tauto. revert path N' N. 
    intros path N _. revert path N. reads_but.
  - injection H1 as <-. injection H2 as <-. split; [reads_all|]. intros path _. revert path. reads_all.
Qed.
End Controls.
