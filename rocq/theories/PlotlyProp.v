(** Closed form of plotly figures, and what they show. *)
From Coq Require Import String.
From Verif Require Import Base BaseFacts Dict DictFacts ModelArith ModelCore SpecCore CoreLabels CoreGraph CoreProp.
From Verif Require Import ModelDraw ModelPlotly SpecPlot DrawFacts PlotlyFacts.
Open Scope nat_scope.

Section Closed.
Variable A : arith.
Variable CS : Type.
Variable get_colorscale : string -> res CS.
Variable plotly_cmap : string -> option string.
Variable str_num : num A -> string.
Variable m : mapper_plot A.
Notation g := (mp_graph m).
Notation dim := (mp_dim m).
Notation figure := (figure A CS).
Notation attrs := (attrs A CS).
Notation plot := (plot A CS get_colorscale plotly_cmap str_num m).
Notation update_figure := (update_figure A CS get_colorscale m).
Notation set_ui := (set_ui A CS get_colorscale plotly_cmap str_num m).

(** What the settings of a call amount to. *)
Record settings : Type := mkst {
  st_title : string;
  st_size : num A;
  st_colors : list (num A);
  st_text : list (num A * Z * nat);
  st_edge : list (num A);
  st_scale : CS }.
Definition settings_of (titles : list string) (ns : list (num A)) (c : colors2 A) (agg : agg_fn A) (cmaps : list string)
  : res settings :=
  do t0 <- rd titles 0;
  do s0 <- rd ns (length ns / 2);
  do col <- column c 0;
  do cols <- aggregate_graph col g agg;
  do txt <- text A m cols;
  do ec <- (if dim =? 3 then edge_colors A m cols else Ok []);
  do cm <- rd cmaps 0;
  do cs <- get_colorscale cm;
  Ok (mkst t0 s0 (map snd cols) txt ec cs).

Definition title_patch (st : settings) : attrs := under A CS "marker.colorbar." (colorbar A CS (st_title st)).
Definition size_patch (st : settings) : attrs :=
  [("marker.sizeref", ANum (sizeref A (st_size st))); ("marker.sizemin", ANum (ofz A 1)); ("marker.sizemode", AStr "area")]%string.
Definition cmin (st : settings) : aval A CS := opt_num (py_min (lt_b A) (st_colors st)).
Definition cmax (st : settings) : aval A CS := opt_num (py_max (lt_b A) (st_colors st)).
Definition color_patch (st : settings) : attrs :=
  [("text", ATexts (st_text st)); ("marker.opacity", ANum (ofz A 1)); ("marker.color", ANums (st_colors st));
   ("marker.cmin", cmin st); ("marker.cmax", cmax st)]%string.
Definition scale_patch (st : settings) : attrs :=
  [("marker.colorscale", AScale (st_scale st)); ("marker.line.colorscale", AScale (st_scale st))]%string.
Definition node_patches (st : settings) (t : attrs) : attrs :=
  apply_patch (scale_patch st) (apply_patch (color_patch st) (apply_patch (size_patch st) (apply_patch (title_patch st) t))).
Definition edge_patches (st : settings) (t : attrs) : attrs :=
  if dim =? 3 then
    apply_patch [("line.colorscale"%string, AScale (st_scale st))]
      (apply_patch [("line.color", ANums (st_edge st)); ("line.cmin", cmin st); ("line.cmax", cmax st)]%string t)
  else if dim =? 2 then apply_patch (scale_patch st) t
  else t.
Definition opt_attr (key : string) (o : option Z) : attrs := match o with Some z => [(key, AInt z)] | None => [] end.
Definition layout_patches (w h : option Z) (t : attrs) : attrs :=
  apply_patch (opt_attr "height" h) (apply_patch (opt_attr "width" w) t).

Definition named (e n : attrs) : Prop :=
  attr e "name" = AStr edges_trace_name /\ attr n "name" = AStr nodes_trace_name.

Lemma has_name_is (t : attrs) s name : attr t "name" = AStr s -> has_name name t = String.eqb s name.
Proof. unfold has_name. intros ->. reflexivity. Qed.

Lemma upd_nodes patch e n lay ms ss : named e n ->
  update_traces patch nodes_trace_name (mkfig [e; n] lay ms ss) = mkfig [e; apply_patch patch n] lay ms ss.
Proof.
  intros [He Hn]. unfold update_traces. cbn [f_traces map f_layout f_menus f_sliders].
  rewrite (has_name_is e _ _ He), (has_name_is n _ _ Hn). reflexivity.
Qed.
Lemma upd_edges patch e n lay ms ss : named e n ->
  update_traces patch edges_trace_name (mkfig [e; n] lay ms ss) = mkfig [apply_patch patch e; n] lay ms ss.
Proof.
  intros [He Hn]. unfold update_traces. cbn [f_traces map f_layout f_menus f_sliders].
  rewrite (has_name_is e _ _ He), (has_name_is n _ _ Hn). reflexivity.
Qed.
Lemma named_nodes patch e n : named e n -> ~ In "name"%string (map fst patch) -> named e (apply_patch patch n).
Proof. intros [He Hn] N. split; [exact He|]. rewrite attr_apply_other by exact N. exact Hn. Qed.
Lemma named_edges patch e n : named e n -> ~ In "name"%string (map fst patch) -> named (apply_patch patch e) n.
Proof. intros [He Hn] N. split; [|exact Hn]. rewrite attr_apply_other by exact N. exact He. Qed.

Ltac notname := vm_compute; intuition discriminate.
Ltac nm := repeat first [assumption | apply named_nodes; [|notname] | apply named_edges; [|notname]].
Ltac go := unfold set_title, set_node_size, fseq, fwith, fdo, fskip;
  repeat (match goal with H : ?r = Ok _ |- context [?r] => rewrite H | H : ?r = Err _ |- context [?r] => rewrite H end; cbv beta iota).
Ltac err := solve [eexists; go; reflexivity].

Lemma update_figure_closed titles ns c agg cmaps w h e n lay ms ss : named e n ->
  match settings_of titles ns c agg cmaps with
  | Ok st => update_figure (Some titles) (Some ns) (Some c) (Some agg) (Some cmaps) w h (mkfig [e; n] lay ms ss) =
      (mkfig [edge_patches st e; node_patches st n] (layout_patches w h lay) ms ss, Ok tt)
  | Err x => exists f', update_figure (Some titles) (Some ns) (Some c) (Some agg) (Some cmaps) w h (mkfig [e; n] lay ms ss) = (f', Err x)
  end.
Proof.
  intro Nm.
  assert (L : fseq (fopt w (set_width A CS)) (fopt h (set_height A CS)) (mkfig [e; n] lay ms ss) = (mkfig [e; n] (layout_patches w h lay) ms ss, Ok tt)).
  { destruct w, h; reflexivity. }
  assert (L' : forall (k : fop A CS), fseq (fopt w (set_width A CS)) (fseq (fopt h (set_height A CS)) k) (mkfig [e; n] lay ms ss) = k (mkfig [e; n] (layout_patches w h lay) ms ss)).
  { intro k. revert L. unfold fseq. destruct (fopt w (set_width A CS) (mkfig [e; n] lay ms ss)) as [f1 [u|x]]; [|discriminate].
    destruct (fopt h (set_height A CS) f1) as [f2 [u2|x2]]; [|discriminate]. intro E. injection E as ->. reflexivity. }
  unfold ModelPlotly.update_figure. rewrite L'. clear L L'. set (lay' := layout_patches w h lay). clearbody lay'.
  unfold settings_of. cbn [fopt].
  destruct (rd titles 0) as [t0|x] eqn:E1; cbn [bind]; [|err].
  destruct (rd ns (length ns / 2)) as [s0|x] eqn:E2; cbn [bind]; [|err].
  destruct (column c 0) as [col|x] eqn:E3; cbn [bind]; [|err].
  unfold set_colors, set_cmap.
  destruct (aggregate_graph col g agg) as [cols|x] eqn:E4; cbn [bind]; [|err].
  destruct (text A m cols) as [txt|x] eqn:E5; cbn [bind]; [|err].
  unfold edge_patches. destruct (dim =? 3) eqn:D3.
  - destruct (edge_colors A m cols) as [ec|x] eqn:E6; cbn [bind]; [|err].
    destruct (rd cmaps 0) as [cm|x] eqn:E7; cbn [bind]; [|err].
    destruct (get_colorscale cm) as [cs|x] eqn:E8; cbn [bind]; [|err].
    go.
    rewrite upd_nodes by exact Nm. rewrite upd_nodes by nm. rewrite upd_nodes by nm. rewrite upd_edges by nm.
    rewrite upd_nodes by nm. rewrite upd_edges by nm. reflexivity.
  - cbn [bind].
    destruct (rd cmaps 0) as [cm|x] eqn:E7; cbn [bind]; [|err].
    destruct (get_colorscale cm) as [cs|x] eqn:E8; cbn [bind]; [|err].
    destruct (dim =? 2) eqn:D2.
    + go. rewrite upd_nodes by exact Nm. rewrite upd_nodes by nm. rewrite upd_nodes by nm. 
      rewrite upd_nodes by nm. rewrite upd_edges by nm. reflexivity.
    + go. rewrite upd_nodes by exact Nm. rewrite upd_nodes by nm. rewrite upd_nodes by nm. 
      rewrite upd_nodes by nm. reflexivity.
Qed.

(** The controls. *)
Definition cmap_menu (cmaps : list string) : res (menu A CS) := ui_menu_cmap A CS get_colorscale m (somes (map plotly_cmap cmaps)).
Definition color_menu (c : colors2 A) (titles : list string) (agg : agg_fn A) : res (menu A CS) := ui_menu_color A CS m c titles agg.

Lemma set_ui_closed cmaps c titles agg ns (f : figure) :
  set_ui (Some cmaps) (Some c) (Some titles) (Some agg) (Some ns) f =
  match cmap_menu cmaps with
  | Err x => (f, Err x)
  | Ok mc => match color_menu c titles agg with
             | Err x => (f, Err x)
             | Ok mo => (set_controls [ui_menu_dark_mode A CS; mc; mo] [ui_slider_node_size A CS str_num ns] f, Ok tt)
             end
  end.
Proof.
  unfold ModelPlotly.set_ui, cmap_menu, color_menu. cbn [option_map res_or].
  destruct (ui_menu_cmap A CS get_colorscale m (somes (map plotly_cmap cmaps))) as [mc|x]; cbn [bind fwith]; [|reflexivity].
  unfold fwith. cbn. destruct (ui_menu_color A CS m c titles agg) as [mo|x]; cbn [bind]; reflexivity.
Qed.

Lemma new_figure_named f0 : new_figure A CS m = Ok f0 -> exists e n, f0 = mkfig [e; n] (layout A CS) [] [] /\ named e n.
Proof.
  unfold new_figure. intro H. apply bind_ok in H. destruct H as [na [H1 H]]. apply bind_ok in H. destruct H as [ea [H2 H]].
  apply bind_ok in H. destruct H as [e [H3 H]]. apply bind_ok in H. destruct H as [n [H4 H]]. injection H as <-.
  exists e, n. split; [reflexivity|]. split.
  - unfold edges_trace in H3. apply bind_ok in H3. destruct H3 as [x [_ H3]]. apply bind_ok in H3. destruct H3 as [y [_ H3]].
    destruct (dim =? 3); [apply bind_ok in H3; destruct H3 as [z [_ H3]]|]; injection H3 as <-; reflexivity.
  - unfold nodes_trace in H4. apply bind_ok in H4. destruct H4 as [x [_ H4]]. apply bind_ok in H4. destruct H4 as [y [_ H4]].
    apply bind_ok in H4. destruct H4 as [s [_ H4]].
    destruct (dim =? 3); [apply bind_ok in H4; destruct H4 as [z [_ H4]]|]; injection H4 as <-; reflexivity.
Qed.

Definition plotted (e n : attrs) (st : settings) (mc mo : menu A CS) (ns : list (num A)) (w h : option Z) : figure :=
  mkfig [edge_patches st e; node_patches st n] (layout_patches w h (layout A CS))
    [ui_menu_dark_mode A CS; mc; mo] [ui_slider_node_size A CS str_num ns].

Lemma plot_closed c ns titles agg cmaps w h f :
  plot c ns titles agg cmaps w h = Ok f <->
  exists e n st mc mo, new_figure A CS m = Ok (mkfig [e; n] (layout A CS) [] []) /\ named e n /\
    settings_of titles ns c agg cmaps = Ok st /\ cmap_menu cmaps = Ok mc /\ color_menu c titles agg = Ok mo /\
    f = plotted e n st mc mo ns w h.
Proof.
  unfold ModelPlotly.plot. split.
  - intro H. apply bind_ok in H. destruct H as [f0 [H0 H]]. destruct (new_figure_named f0 H0) as [e [n [-> Nm]]].
    exists e, n. pose proof (update_figure_closed titles ns c agg cmaps w h e n (layout A CS) [] [] Nm) as C.
    destruct (settings_of titles ns c agg cmaps) as [st|x].
    + unfold fseq in H. rewrite C in H. rewrite set_ui_closed in H.
      destruct (cmap_menu cmaps) as [mc|x]; [|discriminate]. destruct (color_menu c titles agg) as [mo|x]; [|discriminate].
      injection H as <-. exists st, mc, mo. split; [exact H0|]. split; [exact Nm|]. repeat split.
    + destruct C as [f' C]. unfold fseq in H. rewrite C in H. discriminate.
  - intros [e [n [st [mc [mo [H0 [Nm [Hs [Hc [Ho ->]]]]]]]]]]. rewrite H0. cbn [bind].
    pose proof (update_figure_closed titles ns c agg cmaps w h e n (layout A CS) [] [] Nm) as C. rewrite Hs in C.
    unfold fseq. rewrite C. rewrite set_ui_closed, Hc, Ho. reflexivity.
Qed.
End Closed.
