(** Active entries, the effect of single settings, and when plotting succeeds. *)
From Coq Require Import String.
From Verif Require Import Base BaseFacts Dict DictFacts ModelArith ModelCore SpecCore CoreLabels CoreGraph CoreProp UnionFindProp.
From Verif Require Import ModelDraw ModelPlotly SpecPlot DrawFacts PlotlyFacts PlotlyProp PlotlyShow PlotlyUpdate PlotlyControls.
Open Scope nat_scope.

Section Effect.
Variable A : arith.
Variable CS : Type.
Variable get_colorscale : string -> res CS.
Variable plotly_cmap : string -> option string.
Variable str_num : num A -> string.
Variable m : mapper_plot A.
Notation g := (mp_graph m).
Notation dim := (mp_dim m).
Notation figure := (figure A CS).
Notation attrs := (attrs A CS).
Notation plot := (plot A CS get_colorscale plotly_cmap str_num m).
Notation plot_plotly := (plot_plotly A CS get_colorscale plotly_cmap str_num m).
Notation plot_plotly_update := (plot_plotly_update A CS get_colorscale plotly_cmap str_num m).
Notation settings_of := (settings_of A CS get_colorscale m).
Notation cmap_menu := (cmap_menu A CS get_colorscale plotly_cmap m).
Notation color_menu := (color_menu A CS m).
Notation update_figure := (update_figure A CS get_colorscale m).
Notation set_ui := (set_ui A CS get_colorscale plotly_cmap str_num m).
Notation keeps := (keeps A CS).

(** ** The entries shown as active are those drawn. *)
Lemma active_size c ns titles agg cmaps w h f sl :
  plot c ns titles agg cmaps w h = Ok f -> find_slider "slider_node_size" (f_sliders f) = Some sl ->
  exists b, nth_error (s_steps sl) (s_active sl) = Some b /\ same_traces (f_traces (restyle b f)) (f_traces f).
Proof.
  intros H Fm. apply plot_closed in H. destruct H as [e [n [st [mc [mo [B1 [B2 [B3 [B4 [B5 ->]]]]]]]]]].
  destruct (find_controls A CS str_num m e n st mc mo ns w h (cmap_menu_name _ _ _ _ _ _ _ B4) (color_menu_name _ _ _ _ _ _ _ B5)) as [_ [_ F2]].
  rewrite F2 in Fm. injection Fm as <-. cbn [ui_slider_node_size s_steps s_active].
  destruct (settings_inv _ _ _ _ _ _ _ _ _ _ B3) as [col0 [cols0 [cm0 [S1 [S2 [S3 [S4 [S5 [S6 [S7 [S8 S9]]]]]]]]]]].
  rewrite nth_error_map, S2. cbn [option_map]. eexists. split; [reflexivity|].
  unfold same_traces, restyle, PlotlyProp.plotted. cbn [f_traces patch_traces].
  apply traces_explicit in B1. destruct B1 as [x [y [ex [ey [sz [z [ez [H1 [H2 H3]]]]]]]]].
  unfold edges_trace in H1. unfold nodes_trace in H2. rewrite H3 in H2. cbn [rd nth_error bind] in H1, H2.
  unfold edge_patches. destruct (dim =? 3); [|destruct (dim =? 2)]; injection H1 as <-; injection H2 as <-; 
    (constructor; [|constructor; [|constructor]]); reads_all.
Qed.

Lemma active_color c ns titles agg cmaps w h f mo : dim = 2 \/ dim = 3 ->
  plot c ns titles agg cmaps w h = Ok f -> find_menu "menu_color" (f_menus f) = Some mo -> 1 < c_cols c ->
  exists b, nth_error (m_buttons mo) (m_active mo) = Some b /\ same_traces (f_traces (restyle b f)) (f_traces f).
Proof.
  intros D H Fm C. apply plot_closed in H. destruct H as [e [n [st [mc [mo' [B1 [B2 [B3 [B4 [B5 ->]]]]]]]]]].
  destruct (find_controls A CS str_num m e n st mc mo' ns w h (cmap_menu_name _ _ _ _ _ _ _ B4) (color_menu_name _ _ _ _ _ _ _ B5)) as [_ [F2 _]].
  rewrite F2 in Fm. injection Fm as ->. destruct (color_entries _ _ _ _ _ _ _ B5) as [L [Ea Q]]. rewrite Ea.
  apply Nat.ltb_lt in C. rewrite C in L. apply Nat.ltb_lt in C.
  destruct (nth_error (m_buttons mo) 0) as [b|] eqn:Eb; [|apply nth_error_None in Eb; lia].
  exists b. split; [reflexivity|]. destruct (Q 0 b Eb) as [_ [t [args [Et [Eu ->]]]]].
  destruct (settings_inv _ _ _ _ _ _ _ _ _ _ B3) as [col [cols [cm0 [S1 [S2 [S3 [S4 [S5 [S6 [S7 [S8 S9]]]]]]]]]]].
  rewrite Et in S1. injection S1 as ->.
  unfold update_colors in Eu. rewrite S3 in Eu. cbn [bind] in Eu. rewrite S4 in Eu. cbn [bind] in Eu. rewrite S6 in Eu. cbn [bind] in Eu.
  unfold rd in Eu. rewrite Et in Eu. cbn [bind] in Eu. rewrite <- S5 in Eu.
  unfold same_traces, restyle, PlotlyProp.plotted. cbn [f_traces patch_traces].
  apply traces_explicit in B1. destruct B1 as [x [y [ex [ey [sz [z [ez [H1 [H2 H3]]]]]]]]].
  unfold edges_trace in H1. unfold nodes_trace in H2. rewrite H3 in H2. cbn [rd nth_error bind] in H1, H2.
  unfold edge_patches, target_traces. destruct D as [D|D]; rewrite D in *; cbn [Nat.eqb] in *.
  - injection Eu as <-. injection H1 as <-. injection H2 as <-.
    constructor; [|constructor; [|constructor]]; reads_all.
  - rewrite (S7 eq_refl) in Eu. cbn [bind] in Eu. injection Eu as <-. injection H1 as <-. injection H2 as <-.
    constructor; [|constructor; [|constructor]]; reads_all.
Qed.

Lemma active_cmap c ns titles agg cmaps w h f mc cm0 cm1 : dim = 2 \/ dim = 3 ->
  plot c ns titles agg cmaps w h = Ok f -> find_menu "menu_cmap" (f_menus f) = Some mc -> m_buttons mc <> [] ->
  nth_error cmaps 0 = Some cm0 -> plotly_cmap cm0 = Some cm1 -> get_colorscale cm1 = get_colorscale cm0 ->
  exists b, nth_error (m_buttons mc) (m_active mc) = Some b /\ same_traces (f_traces (restyle b f)) (f_traces f).
Proof.
  intros D H Fm Nb E0 E1 Ec. apply plot_closed in H. destruct H as [e [n [st [mc' [mo [B1 [B2 [B3 [B4 [B5 ->]]]]]]]]]].
  destruct (find_controls A CS str_num m e n st mc' mo ns w h (cmap_menu_name _ _ _ _ _ _ _ B4) (color_menu_name _ _ _ _ _ _ _ B5)) as [F2 _].
  rewrite F2 in Fm. injection Fm as ->. destruct (cmap_entries _ _ _ _ _ _ _ B4) as [L [Ea Q]]. rewrite Ea.
  destruct (m_buttons mc) as [|b bs] eqn:Eb; [contradiction|]. exists b. split; [reflexivity|].
  destruct (Q 0 b eq_refl) as [name [cs [En [Hc ->]]]].
  destruct cmaps as [|cm' cmaps]; [discriminate|]. cbn [nth_error] in E0. injection E0 as ->.
  cbn [map somes concat] in En. rewrite E1 in En. cbn in En. injection En as <-.
  destruct (settings_inv _ _ _ _ _ _ _ _ _ _ B3) as [col [cols [cm2 [S1 [S2 [S3 [S4 [S5 [S6 [S7 [S8 S9]]]]]]]]]]].
  cbn [nth_error] in S8. injection S8 as <-. rewrite <- Ec, Hc in S9. injection S9 as ->.
  unfold same_traces, restyle, PlotlyProp.plotted. cbn [f_traces patch_traces].
  apply traces_explicit in B1. destruct B1 as [x [y [ex [ey [sz [z [ez [H1 [H2 H3]]]]]]]]].
  unfold edges_trace in H1. unfold nodes_trace in H2. rewrite H3 in H2. cbn [rd nth_error bind] in H1, H2.
  unfold edge_patches, target_traces, update_cmap. destruct D as [D|D]; rewrite D in *; cbn [Nat.eqb] in *;
    injection H1 as <-; injection H2 as <-; (constructor; [|constructor; [|constructor]]); reads_all.
Qed.

(** ** Single settings *)
Definition reads_node (f : figure) (path : string) (v : aval A CS) : Prop :=
  exists e n, f_traces f = [e; n] /\ named A CS e n /\ attr n path = v.

Lemma keeps_reads (T L : string -> Prop) op f path v : keeps T L op -> ~ T path -> ~ T "name"%string -> reads_node f path v ->
  reads_node (fst (op f)) path v.
Proof.
  intros K N1 N2 [e [n [E [[Ne Nn] R]]]]. destruct (K f) as [K1 _]. rewrite E in K1.
  inversion K1 as [|? e' ? ? Ke K2 Ea Eb]; subst. inversion K2 as [|? n' ? ? Kn K3 Ec Ed]; subst. inversion K3; subst.
  exists e', n'. split; [symmetry; exact Eb|]. unfold named. rewrite (Ke "name"%string N2), (Kn "name"%string N2), (Kn path N1). repeat split; auto.
Qed.
Lemma sets_node patch path v f w0 : (exists p, reads_node f p w0) -> NoDup (map fst patch) -> In (path, v) patch -> ~ In "name"%string (map fst patch) ->
  reads_node (update_traces patch nodes_trace_name f) path v.
Proof.
  intros [p [e [n [E [Nm _]]]]] N I Nn. destruct f as [ts lay ms ss]. cbn [f_traces] in E. subst ts.
  rewrite upd_nodes by exact Nm. exists e, (apply_patch patch n). split; [reflexivity|]. split.
  - destruct Nm as [N1 N2]. split; [exact N1|]. rewrite attr_apply_other by exact Nn. exact N2.
  - apply attr_apply_same; assumption.
Qed.

Definition steps (titles : option (list string)) (ns : option (list (num A))) (c : option (colors2 A)) (agg : option (agg_fn A)) (cms : option (list string)) : fop A CS :=
  update_figure titles ns c agg cms None None.
Lemma update_split titles ns c agg cms w h f f' : update_figure titles ns c agg cms w h f = (f', Ok tt) ->
  exists f1 f2 f3 f4 f5,
    fopt w (set_width A CS) f = (f1, Ok tt) /\ fopt h (set_height A CS) f1 = (f2, Ok tt) /\
    fopt titles (fun l => fwith (rd l 0) (set_title A CS)) f2 = (f3, Ok tt) /\
    fopt ns (fun l => fwith (rd l (length l / 2)) (set_node_size A CS)) f3 = (f4, Ok tt) /\
    fopt c (fun c => fopt agg (fun a => fwith (column c 0) (fun col => set_colors A CS m col a))) f4 = (f5, Ok tt) /\
    fopt cms (fun l => fwith (rd l 0) (set_cmap A CS get_colorscale m)) f5 = (f', Ok tt).
Proof.
  unfold ModelPlotly.update_figure. intro H.
  apply fseq_ok in H. destruct H as [f1 [H1 H]]. apply fseq_ok in H. destruct H as [f2 [H2 H]]. apply fseq_ok in H. destruct H as [f3 [H3 H]].
  apply fseq_ok in H. destruct H as [f4 [H4 H]]. apply fseq_ok in H. destruct H as [f5 [H5 H]].
  exists f1, f2, f3, f4, f5. auto 10.
Qed.

Ltac notin := let K := fresh "K" in let s := fresh "s" in let T := fresh "T" in let B := fresh "B" in
  intro K; destruct K as [s [T B]]; destruct s; cbn [touched belongs] in T, B;
  first [ solve [tauto] | solve [congruence] | solve [let key := fresh "key" in destruct B as [key B]; discriminate]
        | solve [simpl in B; repeat (destruct B as [B|B]; [discriminate|]); destruct B] ].

Lemma keep_titles titles ns c agg cms w h (f f' : figure) path v : update_figure titles ns c agg cms w h f = (f', Ok tt) ->
  ~ (exists s, touched A s titles ns c agg cms /\ belongs s path) -> reads_node f path v -> reads_node f' path v.
Proof.
  intros H N R. pose proof (keeps_reads _ _ _ f path v (update_figure_keeps A CS get_colorscale plotly_cmap m titles ns c agg cms w h) N) as K.
  rewrite H in K. apply K; [|exact R]. notin.
Qed.

Lemma sizes_effect titles l c agg cms w h f f' w0 : update_figure titles (Some l) c agg cms w h f = (f', Ok tt) -> reads_node f "mode" w0 ->
  exists s, nth_error l (length l / 2) = Some s /\ reads_node f' "marker.sizeref" (ANum (sizeref A s)).
Proof.
  intros H R. pose proof H as H'. apply update_split in H. destruct H as [f1 [f2 [f3 [f4 [f5 [H1 [H2 [H3 [H4 [H5 H6]]]]]]]]]].
  assert (R3 : reads_node f3 "mode" w0).
  { assert (U : update_figure titles None None None None w h f = (f3, Ok tt)).
    { unfold ModelPlotly.update_figure, fseq. rewrite H1, H2, H3. reflexivity. }
    apply (keep_titles _ _ _ _ _ _ _ _ _ _ _ U); [notin|exact R]. }
  cbn [fopt] in H4. apply fwith_ok in H4. destruct H4 as [s [E H4]]. apply rd_ok in E. exists s. split; [exact E|].
  assert (R4 : reads_node f4 "marker.sizeref" (ANum (sizeref A s))).
  { unfold set_node_size, fdo in H4. injection H4 as <-. eapply sets_node; [eauto| | |].
    - cbn. repeat constructor; simpl; intuition discriminate.
    - left. reflexivity.
    - cbn. intuition discriminate. }
  assert (U : update_figure None None c agg cms None None f4 = (f', Ok tt)).
  { unfold ModelPlotly.update_figure, fseq. cbn [fopt fskip]. rewrite H5. exact H6. }
  apply (keep_titles _ _ _ _ _ _ _ _ _ _ _ U); [notin|exact R4].
Qed.
Lemma titles_effect l ns c agg cms w h f f' w0 : update_figure (Some l) ns c agg cms w h f = (f', Ok tt) -> reads_node f "mode" w0 ->
  exists t, nth_error l 0 = Some t /\ reads_node f' "marker.colorbar.title.text" (AStr t).
Proof.
  intros H R. pose proof H as H'. apply update_split in H. destruct H as [f1 [f2 [f3 [f4 [f5 [H1 [H2 [H3 [H4 [H5 H6]]]]]]]]]].
  assert (R2 : reads_node f2 "mode" w0).
  { assert (U : update_figure None None None None None w h f = (f2, Ok tt)).
    { unfold ModelPlotly.update_figure, fseq. rewrite H1, H2. reflexivity. }
    apply (keep_titles _ _ _ _ _ _ _ _ _ _ _ U); [notin|exact R]. }
  cbn [fopt] in H3. apply fwith_ok in H3. destruct H3 as [t [E H3]]. apply rd_ok in E. exists t. split; [exact E|].
  assert (R3 : reads_node f3 "marker.colorbar.title.text" (AStr t)).
  { unfold set_title, fdo in H3. injection H3 as <-. eapply sets_node; [eauto| | |].
    - vm_compute. repeat constructor; simpl; intuition discriminate.
    - cbn. tauto.
    - cbn. intuition discriminate. }
  assert (U : update_figure None ns c agg cms None None f3 = (f', Ok tt)).
  { unfold ModelPlotly.update_figure, fseq. cbn [fopt fskip]. rewrite H4, H5. exact H6. }
  apply (keep_titles _ _ _ _ _ _ _ _ _ _ _ U); [notin|exact R3].
Qed.
Lemma colors_effect titles ns c a cms w h f f' w0 : update_figure titles ns (Some c) (Some a) cms w h f = (f', Ok tt) -> reads_node f "mode" w0 ->
  exists col cols txt, column c 0 = Ok col /\ aggregate_graph col g a = Ok cols /\ text A m cols = Ok txt /\
    reads_node f' "marker.color" (ANums (map snd cols)) /\ reads_node f' "text" (ATexts txt) /\
    reads_node f' "marker.cmin" (opt_num (py_min (lt_b A) (map snd cols))) /\ reads_node f' "marker.cmax" (opt_num (py_max (lt_b A) (map snd cols))).
Proof.
  intros H R. pose proof H as H'. apply update_split in H. destruct H as [f1 [f2 [f3 [f4 [f5 [H1 [H2 [H3 [H4 [H5 H6]]]]]]]]]].
  assert (R4 : reads_node f4 "mode" w0).
  { assert (U : update_figure titles ns None None None w h f = (f4, Ok tt)).
    { unfold ModelPlotly.update_figure, fseq. rewrite H1, H2, H3, H4. reflexivity. }
    apply (keep_titles _ _ _ _ _ _ _ _ _ _ _ U); [notin|exact R]. }
  cbn [fopt] in H5. apply fwith_ok in H5. destruct H5 as [col [E1 H5]]. unfold set_colors in H5.
  apply fwith_ok in H5. destruct H5 as [cols [E2 H5]]. apply fwith_ok in H5. destruct H5 as [txt [E3 H5]].
  exists col, cols, txt. repeat (split; [assumption|]).
  apply fseq_ok in H5. destruct H5 as [f4' [H5 H5']]. unfold fdo in H5. injection H5 as H5.
  assert (G : forall path v, In (path, v) [("text", ATexts txt); ("marker.opacity", ANum (ofz A 1)); ("marker.color", ANums (map snd cols));
                ("marker.cmin", opt_num (py_min (lt_b A) (map snd cols))); ("marker.cmax", opt_num (py_max (lt_b A) (map snd cols)))]%string ->
     ~ In path ["line.color"; "line.cmin"; "line.cmax"; "name"]%string -> ~ belongs SScale path -> reads_node f' path v).
  { intros path v I N1 N2.
    assert (R4' : reads_node f4' path v).
    { rewrite <- H5. eapply sets_node; [eauto| |exact I|].
      - cbn. repeat constructor; simpl; intuition discriminate.
      - cbn. intuition discriminate. }
    assert (R5 : reads_node f5 path v).
    { destruct (dim =? 3); [|injection H5' as <-; exact R4'].
      apply fwith_ok in H5'. destruct H5' as [ec [E4 H5']].
      pose proof (keeps_reads (fun p => In p ["line.color"; "line.cmin"; "line.cmax"]%string) (fun _ => False) _ f4' path v
         (keeps_traces A CS (fun p => In p ["line.color"; "line.cmin"; "line.cmax"]%string) (fun _ => False) _ edges_trace_name (fun p I => I : In p (map fst
            [("line.color", ANums ec); ("line.cmin", opt_num (py_min (lt_b A) (map snd cols))); ("line.cmax", opt_num (py_max (lt_b A) (map snd cols)))]%string))) ) as K.
      rewrite H5' in K. apply K; [simpl in N1 |- *; tauto|simpl; intuition discriminate|exact R4']. }
    assert (U : update_figure None None None None cms None None f5 = (f', Ok tt)).
    { unfold ModelPlotly.update_figure, fseq. cbn [fopt fskip]. exact H6. }
    apply (keep_titles _ _ _ _ _ _ _ _ _ _ _ U); [|exact R5]. intros [s [T B]]. destruct s; cbn [touched] in T; tauto. }
  split; [apply G; simpl; intuition discriminate|]. split; [apply G; simpl; intuition discriminate|]. split; apply G; simpl; intuition discriminate.
Qed.
Lemma scale_effect titles ns c agg l w h f f' w0 : update_figure titles ns c agg (Some l) w h f = (f', Ok tt) -> reads_node f "mode" w0 ->
  exists name cs, nth_error l 0 = Some name /\ get_colorscale name = Ok cs /\ reads_node f' "marker.colorscale" (AScale cs).
Proof.
  intros H R. pose proof H as H'. apply update_split in H. destruct H as [f1 [f2 [f3 [f4 [f5 [H1 [H2 [H3 [H4 [H5 H6]]]]]]]]]].
  assert (R5 : reads_node f5 "mode" w0).
  { assert (U : update_figure titles ns c agg None w h f = (f5, Ok tt)).
    { unfold ModelPlotly.update_figure, fseq. rewrite H1, H2, H3, H4, H5. reflexivity. }
    apply (keep_titles _ _ _ _ _ _ _ _ _ _ _ U); [notin|exact R]. }
  cbn [fopt] in H6. apply fwith_ok in H6. destruct H6 as [name [E H6]]. apply rd_ok in E. unfold set_cmap in H6.
  apply fwith_ok in H6. destruct H6 as [cs [E2 H6]]. exists name, cs. split; [exact E|]. split; [exact E2|].
  apply fseq_ok in H6. destruct H6 as [f6 [H6 H7]]. unfold fdo in H6. injection H6 as H6.
  assert (R6 : reads_node f6 "marker.colorscale" (AScale cs)).
  { rewrite <- H6. eapply sets_node; [eauto| | |].
    - cbn. repeat constructor; simpl; intuition discriminate.
    - left. reflexivity.
    - cbn. intuition discriminate. }
  destruct R6 as [e [n [E6 [Nm R6]]]]. destruct f6 as [ts lay ms ss]. cbn [f_traces] in E6. subst ts.
  assert (Q : forall patch, ~ In "name"%string (map fst patch) -> fdo (update_traces patch edges_trace_name) (mkfig [e; n] lay ms ss) = (f', Ok tt) -> reads_node f' "marker.colorscale" (AScale cs)).
  { intros patch N K. unfold fdo in K. injection K as <-. rewrite upd_edges by exact Nm. exists (apply_patch patch e), n. split; [reflexivity|]. split; [|exact R6].
    destruct Nm as [N1 N2]. split; [rewrite attr_apply_other by exact N; exact N1|exact N2]. }
  destruct (dim =? 3); [|destruct (dim =? 2)].
  - eapply Q; [|exact H7]. simpl. intuition discriminate.
  - eapply Q; [|exact H7]. simpl. intuition discriminate.
  - injection H7 as <-. exists e, n. split; [reflexivity|]. split; [exact Nm|exact R6].
Qed.
Lemma layout_effect titles ns c agg cms w h f f' : update_figure titles ns c agg cms w h f = (f', Ok tt) ->
  (forall z, w = Some z -> attr (f_layout f') "width" = AInt z) /\ (forall z, h = Some z -> attr (f_layout f') "height" = AInt z).
Proof.
  intros H. apply update_split in H. destruct H as [f1 [f2 [f3 [f4 [f5 [H1 [H2 [H3 [H4 [H5 H6]]]]]]]]]].
  assert (U : update_figure titles ns c agg cms None None f2 = (f', Ok tt)).
  { unfold ModelPlotly.update_figure, fseq. cbn [fopt fskip]. rewrite H3, H4, H5. exact H6. }
  pose proof (update_figure_keeps A CS get_colorscale plotly_cmap m titles ns c agg cms None None f2) as [_ [K _]]. rewrite U in K. cbn [fst] in K.
  rewrite !K by (intros [[_ N]|[_ N]]; apply N; reflexivity).
  split; intros z ->.
  - unfold fopt, set_width, fdo in H1. injection H1 as <-. destruct h as [z'|]; cbn [fopt fskip set_height fdo] in H2; injection H2 as <-; cbn [update_layout f_layout];
      rewrite ?attr_apply_other by (simpl; intuition discriminate); apply attr_apply_same; first [left; reflexivity|repeat constructor; intros []].
  - unfold fopt, set_height, fdo in H2. injection H2 as <-. cbn [update_layout f_layout]. apply attr_apply_same; [repeat constructor; intros []|left; reflexivity].
Qed.

Hypothesis W : well_formed g.
Lemma update_effect w h ns c ti agg cm f f' e n : f_traces f = [e; n] -> attr e "name" = AStr "edges_trace" -> attr n "name" = AStr "nodes_trace" ->
  plot_plotly_update w h ns c ti agg cm f = (f', Ok tt) ->
  exists e' n', f_traces f' = [e'; n'] /\
    (forall z, w = Some z -> attr (f_layout f') "width" = AInt z) /\ (forall z, h = Some z -> attr (f_layout f') "height" = AInt z) /\
    (forall l, to_node_sizes ns = Ok l -> exists s, nth_error l (length l / 2) = Some s /\
       attr n' "marker.sizeref" = ANum (if eq_b A s (zero A) then ofz A 1000000000 else mul A (div A (ofz A 1) s) (div A (ofz A 1) s))) /\
    (forall ca cc l, c = Some ca -> to_colors ca = Ok cc -> ti <> TNone -> to_titles ti (c_cols cc) = Ok l ->
       exists t, nth_error l 0 = Some t /\ attr n' "marker.colorbar.title.text" = AStr t) /\
    (forall ca cc a, c = Some ca -> to_colors ca = Ok cc -> agg = Some a -> exists col, is_column cc 0 col /\
       array_length n' "marker.color" = Some (length (g_nodes g)) /\
       forall i z s ids, nth_error (g_nodes g) i = Some (z, (s, ids)) ->
         exists color, node_color col a ids color /\ shown n' "marker.color" i = Some color /\ tooltip n' i = Some (color, z, s)) /\
    (forall l, cm <> CMNone -> to_cmaps cm = Ok l -> exists name cs, nth_error l 0 = Some name /\ get_colorscale name = Ok cs /\
       attr n' "marker.colorscale" = AScale cs).
Proof.
  intros E Ne Nn H. unfold ModelPlotly.plot_plotly_update in H.
  apply fwith_ok in H. destruct H as [cms [E1 H]]. apply fwith_ok in H. destruct H as [cc [E2 H]].
  apply fwith_ok in H. destruct H as [tis [E3 H]]. apply fwith_ok in H. destruct H as [nss [E4 H]].
  apply fseq_ok in H. destruct H as [f1 [Hu H]]. destruct (set_ui_menus _ _ _ _ _ _ _ _ _ _ _ _ _ _ Hu) as [Et _]. rewrite E in Et.
  assert (R : reads_node f1 "mode" (attr n "mode")) by (exists e, n; split; [exact Et|]; split; [split; assumption|reflexivity]).
  assert (R' : reads_node f' "mode" (attr n "mode")) by (apply (keep_titles _ _ _ _ _ _ _ _ _ _ _ H); [notin|exact R]).
  destruct R' as [e' [n' [E' _]]]. exists e', n'. split; [exact E'|].
  assert (G : forall path v, reads_node f' path v -> attr n' path = v).
  { intros path v [e2 [n2 [K [_ K2]]]]. rewrite E' in K. injection K as <- <-. exact K2. }
  destruct (layout_effect _ _ _ _ _ _ _ _ _ H) as [L1 L2]. split; [exact L1|]. split; [exact L2|]. split; [|split; [|split]].
  - intros l Hl. assert (nss = Some l) as -> by (destruct ns; try discriminate Hl; cbn [given_size if_given] in E4; rewrite Hl in E4; injection E4 as <-; reflexivity).
    destruct (sizes_effect _ _ _ _ _ _ _ _ _ _ H R) as [s [Es Rs]]. exists s. split; [exact Es|]. exact (G _ _ Rs).
  - intros ca cc' l -> Hc Nt Hl. cbn [if_given] in E2. rewrite Hc in E2. cbn [bind] in E2. injection E2 as <-.
    assert (tis = Some l) as -> by (destruct ti; try contradiction; cbn [given_title if_given] in E3; rewrite Hl in E3; injection E3 as <-; reflexivity).
    destruct (titles_effect _ _ _ _ _ _ _ _ _ _ H R) as [t [Es Rs]]. exists t. split; [exact Es|]. exact (G _ _ Rs).
  - intros ca cc' a -> Hc ->. cbn [if_given] in E2. rewrite Hc in E2. cbn [bind] in E2. injection E2 as <-.
    destruct (colors_effect _ _ _ _ _ _ _ _ _ _ H R) as [col [cols [txt [C1 [C2 [C3 [C4 [C5 _]]]]]]]]. apply G in C4. apply G in C5.
    exists col. split; [apply column_spec; exact C1|].
    destruct (agg_nth A m W _ _ _ C2) as [Lc [Kc Nc]]. destruct (text_nth A m W _ _ Kc C3) as [_ Nx].
    split; [unfold array_length; rewrite C4, map_length, Lc; reflexivity|].
    intros i z s ids Ei. destruct (Nc i z s ids Ei) as [color [Q1 [Q2 Q3]]]. destruct (Nx i z s ids Ei) as [color' [Q4 Q5]].
    rewrite Q3 in Q4. injection Q4 as <-. exists color. split; [exact Q2|]. unfold shown, tooltip. rewrite C4, C5. auto.
  - intros l Nc Hl. assert (cms = Some l) as -> by (destruct cm; try contradiction; cbn [given_cmap if_given] in E1; rewrite Hl in E1; injection E1 as <-; reflexivity).
    destruct (scale_effect _ _ _ _ _ _ _ _ _ _ H R) as [name [cs [Es [Ec Rs]]]]. exists name, cs. split; [exact Es|]. split; [exact Ec|]. exact (G _ _ Rs).
Qed.

(** ** When plotting succeeds *)
Hypothesis Sy : symmetric_graph g.
Hypothesis Pl : placed m.
Hypothesis D : dim = 2 \/ dim = 3.
Hypothesis Sz : forall z s ids, node_attr g z s ids -> 0 < s.

Lemma pos_total i z : i < dim -> has_node g z -> exists x, pos_at A (mp_pos m) i z = Ok x.
Proof.
  intros I H. destruct (Pl z H) as [p [Hp L]]. unfold pos_at, dget_res. unfold has_pos in Hp. rewrite Hp. cbn [bind].
  destruct (nth_error_ex p i) as [x E]; [lia|]. exists x. apply rd_ok. exact E.
Qed.
Lemma new_figure_total : exists e n, new_figure A CS m = Ok (mkfig [e; n] (layout A CS) [] []) /\ named A CS e n.
Proof.
  destruct (map_res_total (fun i => map_res (pos_at A (mp_pos m) i) (nodes g)) (seq 0 dim)) as [na Hna].
  { intros i I. apply in_seq in I. apply map_res_total. intros z Iz. apply pos_total; [lia|exact Iz]. }
  destruct (map_res_total (edge_pos_axis A m) (seq 0 dim)) as [ea Hea].
  { intros i I. apply in_seq in I. unfold edge_pos_axis.
    destruct (map_res_total (fun e => do a <- pos_at A (mp_pos m) i (fst e); do b <- pos_at A (mp_pos m) i (snd e); Ok [Some a; Some b; None]) (edges g)) as [ps ->]; [|eexists; reflexivity].
    intros [u v] Iu. destruct (edges_are_nodes g u v W Sy Iu) as [Hu Hv]. cbn [fst snd].
    destruct (pos_total i u) as [x ->]; [lia|exact Hu|]. destruct (pos_total i v) as [y ->]; [lia|exact Hv|]. eexists. reflexivity. }
  assert (Hms : exists sz, marker_size A m = Ok sz).
  { apply map_res_total. intros z Iz. unfold nodes in Iz. apply in_map_iff in Iz. destruct Iz as [[z' [s ids]] [Ez Iz]]. cbn [fst] in Ez. subst z'.
    unfold dget_res. rewrite (attr_size_get g z s ids W Iz). cbn [bind].
    destruct (Nat.eqb_spec (max_size g) 0) as [E0|]; [|eexists; reflexivity].
    assert (N : g_nodes g <> []) by (intro K; unfold node_attr in Iz; rewrite K in Iz; destruct Iz).
    destruct (max_size_largest g N) as [_ M]. specialize (M z s ids Iz). specialize (Sz z s ids Iz). lia. }
  destruct Hms as [sz Hms].
  pose proof (map_res_nth _ _ _ Hna) as [Ln _]. pose proof (map_res_nth _ _ _ Hea) as [Le _]. rewrite seq_length in Ln, Le.
  destruct (nth_error_ex na 0) as [x X0]; [lia|]. destruct (nth_error_ex na 1) as [y X1]; [lia|].
  destruct (nth_error_ex ea 0) as [ex Y0]; [lia|]. destruct (nth_error_ex ea 1) as [ey Y1]; [lia|].
  assert (Z : exists f0, new_figure A CS m = Ok f0).
  { unfold new_figure, node_pos_array. rewrite Hna. cbn [bind]. unfold edge_pos_array. rewrite Hea. cbn [bind].
    unfold edges_trace, nodes_trace, rd. rewrite X0, X1, Y0, Y1. cbn [bind]. rewrite Hms. cbn [bind].
    destruct (Nat.eqb_spec dim 3) as [D3|D3]; [|cbn [bind]; eexists; reflexivity].
    destruct (nth_error_ex na 2) as [z ->]; [lia|]. destruct (nth_error_ex ea 2) as [ez ->]; [lia|]. cbn [bind]. eexists. reflexivity. }
  destruct Z as [f0 Z]. destruct (new_figure_named A CS m f0 Z) as [e [n [-> Nm]]]. eauto.
Qed.

Lemma agg_total (col : list (num A)) (agg : agg_fn A) : (forall xs, xs <> [] -> exists v, agg xs = Ok v) ->
  (forall z s ids, node_attr g z s ids -> ids <> [] /\ forall j, In j ids -> j < length col) ->
  exists cols, aggregate_graph col g agg = Ok cols.
Proof.
  intros Ha Hi. unfold aggregate_graph. assert (G : forall nd, (forall z, In z nd -> has_node g z) -> forall acc,
    exists cols, for_each nd (fun node_id agg_values =>
       do a <- dget_res Z.eqb (g_nodes g) node_id;
       do node_values <- map_res (rd col) (snd a);
       do agg_value <- agg node_values;
       Ok (dset Z.eqb agg_values node_id agg_value)) acc = Ok cols).
  { induction nd as [|z nd IH]; intros Hn acc; [exists acc; reflexivity|]. cbn [for_each].
    assert (Hz := Hn z (or_introl eq_refl)). apply in_map_iff in Hz. destruct Hz as [[z' [s ids]] [Ez Iz]]. cbn [fst] in Ez. subst z'.
    destruct (Hi z s ids Iz) as [Ni Li]. unfold dget_res at 1. rewrite (dget_entry_nodup _ Z_eqb_decides (g_nodes g) z (s, ids) (proj1 W) Iz). cbn [bind snd].
    destruct (map_res_total (rd col) ids) as [vals Hv].
    { intros j Ij. destruct (nth_error_ex col j (Li j Ij)) as [x Ex]. exists x. apply rd_ok. exact Ex. }
    rewrite Hv. cbn [bind]. destruct (Ha vals) as [v Hv'].
    { intros ->. apply map_res_nth in Hv. destruct Hv as [L _]. destruct ids; [contradiction|discriminate]. }
    rewrite Hv'. cbn [bind]. apply IH. intros; apply Hn; right; assumption. }
  exact (G (map fst (g_nodes g)) (fun _ I => I) []).
Qed.

Lemma text_total (col : list (num A)) (agg : agg_fn A) cols : aggregate_graph col g agg = Ok cols -> exists txt, text A m cols = Ok txt.
Proof.
  intro H. destruct (agg_nth A m W _ _ _ H) as [_ [_ N]]. apply map_res_total. intros z Iz. unfold nodes in Iz. apply in_map_iff in Iz.
  destruct Iz as [[z' [s ids]] [Ez Iz]]. cbn [fst] in Ez. subst z'. pose proof (attr_size_get g z s ids W Iz) as Es.
  apply In_nth_error in Iz. destruct Iz as [k Iz]. destruct (N k z s ids Iz) as [c [_ [_ Hc]]].
  unfold dget_res. rewrite Hc. cbn [bind]. rewrite Es. eexists. reflexivity.
Qed.
Lemma edge_colors_total (col : list (num A)) (agg : agg_fn A) cols : aggregate_graph col g agg = Ok cols -> exists ec, edge_colors A m cols = Ok ec.
Proof.
  intro H. destruct (agg_nth A m W _ _ _ H) as [_ [_ N]]. unfold edge_colors.
  assert (G : forall z, has_node g z -> exists c, dget Z.eqb cols z = Some c).
  { intros z Hz. apply in_map_iff in Hz. destruct Hz as [[z' [s ids]] [Ez Iz]]. cbn [fst] in Ez. subst z'.
    apply In_nth_error in Iz. destruct Iz as [k Iz]. destruct (N k z s ids Iz) as [c [_ [_ Hc]]]. eauto. }
  destruct (map_res_total (fun e => do a <- dget_res Z.eqb cols (fst e); do b <- dget_res Z.eqb cols (snd e); Ok [a; b; b]) (edges g)) as [ps ->]; [|eexists; reflexivity].
  intros [u v] Iu. destruct (edges_are_nodes g u v W Sy Iu) as [Hu Hv]. cbn [fst snd]. unfold dget_res.
  destruct (G u Hu) as [a ->]. destruct (G v Hv) as [b ->]. eexists. reflexivity.
Qed.

Lemma plot_total (c : colors2 A) ns titles agg cmaps w h cm0 cs0 :
  (forall xs, xs <> [] -> exists v, agg xs = Ok v) ->
  (forall row, In row (c_rows c) -> length row = c_cols c) -> 0 < c_cols c ->
  (forall z s ids, node_attr g z s ids -> ids <> [] /\ forall j, In j ids -> j < length (c_rows c)) ->
  length titles = c_cols c -> ns <> [] ->
  nth_error cmaps 0 = Some cm0 -> get_colorscale cm0 = Ok cs0 ->
  (forall cm cm', In cm cmaps -> plotly_cmap cm = Some cm' -> exists cs, get_colorscale cm' = Ok cs) ->
  exists f, plot c ns titles agg cmaps w h = Ok f.
Proof.
  intros Ha Hr C0 Hi Ht Hn Hc Hc' Hcs.
  destruct new_figure_total as [e [n [H0 Nm]]].
  assert (Col : forall i, i < c_cols c -> exists col cols txt ec, column c i = Ok col /\ aggregate_graph col g agg = Ok cols /\ text A m cols = Ok txt /\ edge_colors A m cols = Ok ec).
  { intros i I. destruct (map_res_total (fun r => rd r i) (c_rows c)) as [col Hcol].
    { intros row Ir. destruct (nth_error_ex row i) as [x Ex]; [rewrite (Hr row Ir); exact I|]. exists x. apply rd_ok. exact Ex. }
    pose proof (map_res_nth _ _ _ Hcol) as [Lc _].
    destruct (agg_total col agg Ha) as [cols Hcols].
    { intros z s ids Hz. rewrite Lc. exact (Hi z s ids Hz). }
    destruct (text_total col agg cols Hcols) as [txt Htxt]. destruct (edge_colors_total col agg cols Hcols) as [ec Hec].
    exists col, cols, txt, ec. split; [|auto]. unfold column. apply Nat.ltb_lt in I. rewrite I. exact Hcol. }
  assert (St : exists st, settings_of titles ns c agg cmaps = Ok st).
  { unfold PlotlyProp.settings_of. destruct (nth_error_ex titles 0) as [t0 E0]; [lia|]. apply (proj2 (rd_ok _ _ _)) in E0. rewrite E0. cbn [bind].
    destruct (nth_error_ex ns (length ns / 2)) as [s0 E1]; [apply Nat.div_lt; [destruct ns; [contradiction|cbn; lia]|lia]|].
    apply (proj2 (rd_ok _ _ _)) in E1. rewrite E1. cbn [bind].
    destruct (Col 0 C0) as [col [cols [txt [ec [-> [K2 [K3 K4]]]]]]]. cbn [bind]. rewrite K2. cbn [bind]. rewrite K3. cbn [bind].
    assert (Q : exists l, (if dim =? 3 then edge_colors A m cols else Ok []) = Ok l) by (destruct (dim =? 3); eauto).
    destruct Q as [l ->]. cbn [bind]. apply (proj2 (rd_ok _ _ _)) in Hc. rewrite Hc. cbn [bind]. rewrite Hc'. eexists. reflexivity. }
  destruct St as [st St].
  assert (Mc : exists mc, cmap_menu cmaps = Ok mc).
  { unfold PlotlyProp.cmap_menu, ui_menu_cmap. destruct (1 <? length (somes (map plotly_cmap cmaps))); [|eexists; reflexivity].
    destruct (map_res_total (fun c0 => do cs <- get_colorscale c0; Ok (mkbutton c0 "restyle" (update_cmap A CS m cs) (target_traces A m))) (somes (map plotly_cmap cmaps))) as [bs ->]; [|eexists; reflexivity].
    intros c1 I. unfold somes in I. apply in_concat in I. destruct I as [o [I1 I2]]. rewrite map_map in I1. apply in_map_iff in I1.
    destruct I1 as [cm [Eo Icm]]. subst o. destruct (plotly_cmap cm) as [c2|] eqn:Ep; [|destruct I2]. destruct I2 as [<-|[]].
    destruct (Hcs cm c2 Icm Ep) as [cs ->]. eexists. reflexivity. }
  destruct Mc as [mc Mc].
  assert (Mo : exists mo, color_menu c titles agg = Ok mo).
  { unfold PlotlyProp.color_menu, ui_menu_color. destruct (1 <? c_cols c); [|eexists; reflexivity].
    destruct (map_res_total (fun i => do title <- rd titles i; do args <- update_colors A CS m c titles agg i; Ok (mkbutton title "restyle" args (target_traces A m))) (seq 0 (c_cols c))) as [bs ->]; [|eexists; reflexivity].
    intros i I. apply in_seq in I. destruct (nth_error_ex titles i) as [t E]; [lia|]. apply (proj2 (rd_ok _ _ _)) in E. rewrite E. cbn [bind].
    unfold update_colors. destruct (Col i) as [col [cols [txt [ec [-> [K2 [K3 K4]]]]]]]; [lia|]. cbn [bind]. rewrite K2. cbn [bind]. rewrite K3. cbn [bind].
    rewrite E. cbn [bind]. rewrite K4. cbn [bind]. destruct (dim =? 3); [|destruct (dim =? 2)]; cbn [bind]; eexists; reflexivity. }
  destruct Mo as [mo Mo].
  exists (plotted A CS str_num m e n st mc mo ns w h). apply plot_closed. exists e, n, st, mc, mo. auto 10.
Qed.
End Effect.
