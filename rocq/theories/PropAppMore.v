(** More about the settings and the figure of the web application (src/tdamapper/app.py), C45 and C50,
    and about the default colour scale of plots (src/tdamapper/_plot_plotly.py), C41. *)
From Coq Require Import String Reals Lra Lia ZArith QArith.
From Verif Require Import Base BaseFacts Dict ModelArith ModelCore SpecCore SpecMetric ModelDraw ModelPlotly SpecPlot.
From Verif Require Import PlotlyFacts PlotlyProp PlotlyControls PlotlyUpdate ModelApp SpecApp AppProp AppRun AppPage PropPlot PropUpdate PropApp.
Open Scope nat_scope.

(** What a setting becomes: a cleared or zero number gives the default; any other number
    is kept, or cut off towards zero where a whole number is meant. *)
Definition cleared (v : option xr) : Prop := v = None \/ v = Some (XFin 0).
Definition num_setting (v : option xr) (default x : xr) : Prop :=
  cleared v /\ x = default \/ ~ cleared v /\ v = Some x.
Definition cut_off (r : R) (z : Z) : Prop :=
  (0 <= r /\ IZR z <= r < IZR z + 1 \/ r < 0 /\ IZR z - 1 < r <= IZR z)%R.
Definition int_setting (v : option xr) (default z : Z) : Prop :=
  cleared v /\ z = default \/ ~ cleared v /\ exists r, v = Some (XFin r) /\ cut_off r z.
Definition choice_setting (v : option string) (default s : string) : Prop :=
  (v = None \/ v = Some ""%string) /\ s = default \/ v = Some s /\ s <> ""%string.
Definition no_number (v : option xr) : Prop := exists x, v = Some x /\ forall r, x <> XFin r.

Lemma ok_eq (T : Type) (a b : T) : Ok a = Ok b -> a = b.
Proof. intro H. injection H as H. exact H. Qed.
Lemma int_part_spec r : (IZR (Int_part r) <= r < IZR (Int_part r) + 1)%R.
Proof. destruct (base_Int_part r). lra. Qed.
Lemma num_setting_spec v d : num_setting v d (num_or XA v d).
Proof.
  unfold num_setting, cleared, num_or. destruct v as [x|]; [|left; auto].
  destruct (eq_b XA x (zero XA)) eqn:E.
  - apply xzero_b in E. subst x. left. auto.
  - right. split; [|reflexivity]. intros [K|K]; [discriminate|]. injection K as ->. rewrite (proj2 (xzero_b (XFin 0)) eq_refl) in E. discriminate.
Qed.
Lemma int_setting_spec v d z : int_or XA xtrunc v d = Ok z <-> int_setting v d z.
Proof.
  unfold int_setting, cleared, int_or. destruct v as [x|].
  2:{ split; [intro H; injection H as <-; left; auto|]. intros [[_ ->]|[N _]]; [reflexivity|]. exfalso. apply N. auto. }
  destruct (eq_b XA x (zero XA)) eqn:E.
  { apply xzero_b in E. subst x. split; [intro H; injection H as <-; left; auto|]. intros [[_ ->]|[N _]]; [reflexivity|]. exfalso. apply N. auto. }
  assert (Nz : x <> XFin 0) by (intros ->; rewrite (proj2 (xzero_b (XFin 0)) eq_refl) in E; discriminate).
  split.
  - intro H. right. split; [intros [K|K]; [discriminate|]; injection K as K; contradiction|].
    unfold xtrunc in H. destruct x as [| |r|]; try discriminate. exists r. split; [reflexivity|]. injection H as <-.
    destruct (Rle_dec 0 r) as [P|P].
    + left. split; [exact P|]. apply int_part_spec.
    + right. split; [lra|]. pose proof (int_part_spec (- r)) as Q. rewrite opp_IZR. lra.
  - intros [[[K|K] _]|[_ [r [K C]]]]; try discriminate; injection K as K; [contradiction|]. subst x. unfold xtrunc. f_equal.
    destruct (Rle_dec 0 r) as [P|P]; destruct C as [[C1 C2]|[C1 C2]]; try lra.
    + pose proof (int_part_spec r) as Q.
      assert (Z1 : (Int_part r < z + 1)%Z) by (apply lt_IZR; rewrite plus_IZR; lra).
      assert (Z2 : (z < Int_part r + 1)%Z) by (apply lt_IZR; rewrite plus_IZR; lra). lia.
    + pose proof (int_part_spec (- r)) as Q.
      assert (Z1 : (Int_part (- r) < - z + 1)%Z) by (apply lt_IZR; rewrite plus_IZR, opp_IZR; lra).
      assert (Z2 : (- z < Int_part (- r) + 1)%Z) by (apply lt_IZR; rewrite plus_IZR, opp_IZR; lra). lia.
Qed.
Lemma int_setting_fails v d e : int_or XA xtrunc v d = Err e -> no_number v.
Proof.
  unfold int_or. destruct v as [x|]; [|discriminate]. destruct (eq_b XA x (zero XA)); [discriminate|]. intro H. exists x. split; [reflexivity|].
  intros r ->. discriminate.
Qed.
Lemma choice_setting_spec v d : choice_setting v d (str_or v d).
Proof.
  unfold choice_setting, str_or. destruct v as [s|]; [|left; auto]. destruct (String.eqb_spec s "") as [->|N]; [left; auto|right; auto].
Qed.

(** ** C45: what each control gives: a cleared control, a zero and an empty choice give the default. *)
Theorem C45_defaults :
  forall (c : controls XA) g, get_mapper_config XA xtrunc c = Ok g ->
  (v_excluded c = Some (excluded_columns g) \/ v_excluded c = None /\ excluded_columns g = []) /\
  choice_setting (v_lens_type c) "PCA" (lens_type g) /\
  choice_setting (v_cover_type c) "Cubical Cover" (cover_type g) /\
  choice_setting (v_clustering_type c) "Skip" (clustering_type g) /\
  int_setting (v_pca_n_components c) 2 (lens_pca_n_components g) /\
  int_setting (v_umap_n_components c) 2 (lens_umap_n_components g) /\
  int_setting (v_n_intervals c) 10 (cover_cubical_n_intervals g) /\
  num_setting (v_overlap_frac c) (XFin (1 / 4)) (cover_cubical_overlap_frac g) /\
  num_setting (v_ball_radius c) (XFin 100) (cover_ball_radius g) /\
  int_setting (v_knn_neighbors c) 10 (cover_knn_neighbors g) /\
  int_setting (v_kmeans_n_clusters c) 2 (clustering_kmeans_n_clusters g) /\
  num_setting (v_dbscan_eps c) (XFin (1 / 2)) (clustering_dbscan_eps g) /\
  int_setting (v_dbscan_min_samples c) 5 (clustering_dbscan_min_samples g) /\
  int_setting (v_agglomerative_n_clusters c) 2 (clustering_agglomerative_n_clusters g) /\
  (exists d, v_dimensions c = Some d /\ (d = 3%Z /\ plot_dimensions g = 3 \/ d <> 3%Z /\ plot_dimensions g = 2)) /\
  int_setting (v_iterations c) 100 (plot_iterations g) /\
  int_setting (v_seed c) 42 (plot_seed g).
Proof.
  intros c g H. unfold get_mapper_config in H. apply bind_ok in H. destruct H as [d [Hd H]]. cbv zeta in H.
  assert (Ed : v_dimensions c = Some d) by (destruct (v_dimensions c); [injection Hd as ->; reflexivity|discriminate]).
  do 9 (let E := fresh "E" in apply bind_ok in H; destruct H as [? [E H]]; apply int_setting_spec in E). apply ok_eq in H. subst g.
  cbn [excluded_columns lens_type cover_type clustering_type lens_pca_n_components lens_umap_n_components cover_cubical_n_intervals
    cover_cubical_overlap_frac cover_ball_radius cover_knn_neighbors clustering_kmeans_n_clusters clustering_dbscan_eps
    clustering_dbscan_min_samples clustering_agglomerative_n_clusters plot_dimensions plot_iterations plot_seed].
  assert (Q : quarter XA = XFin (1 / 4)) by (unfold quarter; cbn [XA div ofz]; unfold xdiv; try destruct (Req_EM_T _ _); try lra; reflexivity).
  assert (Hf : half XA = XFin (1 / 2)) by (unfold half; cbn [XA div ofz]; unfold xdiv; try destruct (Req_EM_T _ _); try lra; reflexivity).
  rewrite Q, Hf.
  split; [destruct (v_excluded c); cbn; auto|].
  do 3 (split; [apply choice_setting_spec|]).
  do 3 (split; [assumption|]). do 2 (split; [exact (num_setting_spec _ _)|]). do 2 (split; [assumption|]). split; [apply num_setting_spec|].
  do 2 (split; [assumption|]). split; [|split; assumption].
  exists d. split; [exact Ed|]. destruct (Z.eqb_spec d 2) as [->|N2]; [right; split; [discriminate|reflexivity]|].
  destruct (Z.eqb_spec d 3) as [->|N3]; [left; auto|right; auto].
Qed.
Print Assumptions C45_defaults.

(** ** C45: the settings cannot be read exactly if the dimensions are cleared or a whole number is
    asked for and the control holds an infinity or "not a number". *)
Theorem C45_unreadable :
  forall c : controls XA, (exists e, get_mapper_config XA xtrunc c = Err e) <->
    v_dimensions c = None \/ exists v, In v (int_controls c) /\ no_number v.
Proof.
  intro c. unfold int_controls.
  assert (F : forall v d, no_number v -> exists e, int_or XA xtrunc v d = Err e).
  { intros v d [x [-> N]]. cbn [int_or]. destruct (eq_b XA x (zero XA)) eqn:E; [apply xzero_b in E; destruct (N _ E)|].
    destruct x as [| |r|]; try (eexists; reflexivity). destruct (N r eq_refl). }
  unfold get_mapper_config. split.
  - intros [e H]. destruct (v_dimensions c) as [d|]; [|left; reflexivity]. right. cbn [bind] in H. cbv zeta in H.
    repeat match type of H with bind ?r _ = _ => let E := fresh "E" in destruct r eqn:E; cbn [bind] in H;
      [clear E|apply int_setting_fails in E; eexists; split; [|exact E]; cbn; auto 12] end.
    discriminate.
  - intros [E|[v [I N]]]; [rewrite E; eexists; reflexivity|]. destruct (v_dimensions c) as [d|]; [|eexists; reflexivity]. cbn [bind]. cbv zeta.
    repeat (destruct I as [<-|I]); try destruct I;
    match type of N with no_number ?w => pose proof (fun d => F w d N) as K end;
    repeat match goal with |- exists e, bind (int_or XA xtrunc ?w ?d) _ = _ =>
      first [destruct (K d) as [? ->]; eexists; reflexivity
            |destruct (int_or XA xtrunc w d); cbn [bind]; [|eexists; reflexivity]] end.
Qed.
Print Assumptions C45_unreadable.

(** A page with everything cleared but the dimensions gives the defaults. *)
Definition cleared_page : controls XA :=
  mkcontrols (A := XA) None None true None true None None None None None None None None None None None (Some 3%Z) None (Some (XFin (- 7 / 2))).
Example C45_cleared_page : exists g, get_mapper_config XA xtrunc cleared_page = Ok g /\
  lens_type g = "PCA"%string /\ cover_cubical_n_intervals g = 10%Z /\ plot_dimensions g = 3 /\ plot_iterations g = 100%Z /\ plot_seed g = (-3)%Z.
Proof.
  destruct (get_mapper_config XA xtrunc cleared_page) as [g|e] eqn:E.
  - exists g. split; [reflexivity|]. destruct (C45_defaults _ _ E) as [_ [H1 [_ [_ [_ [_ [H2 [_ [_ [_ [_ [_ [_ [_ [H3 [H4 H5]]]]]]]]]]]]]]]].
    cbn in H1, H2, H3, H4, H5. unfold cleared_page in *. cbn in *.
    split; [destruct H1 as [[_ H1]|[H1 _]]; [exact H1|discriminate]|].
    split; [destruct H2 as [[_ H2]|[H2 _]]; [exact H2|destruct H2; left; reflexivity]|].
    split; [destruct H3 as [d [D [[_ H3]|[H3 _]]]]; [exact H3|injection D as <-; congruence]|].
    split; [destruct H4 as [[_ H4]|[H4 _]]; [exact H4|destruct H4; left; reflexivity]|].
    destruct H5 as [[[K|K] _]|[_ [r [K [[C1 _]|[_ C]]]]]]; try discriminate.
    + injection K as K. lra.
    + injection K as <-. lra.
    + injection K as <-. apply Z.le_antisymm.
      * apply le_IZR. assert (plot_seed g < -2)%Z by (apply lt_IZR; lra). apply IZR_le. lia.
      * apply le_IZR. assert (-4 < plot_seed g)%Z by (apply lt_IZR; lra). apply IZR_le. lia.
  - exfalso. destruct (proj1 (C45_unreadable cleared_page) (ex_intro _ e E)) as [K|[v [I [x [-> N]]]]]; [discriminate|].
    cbn in I. repeat (destruct I as [I|I]; [try discriminate; injection I as <-; eapply N; reflexivity|]). destruct I.
Qed.

(** ** C50: the layout of the figure drawn: no fixed width or height (so it fills the page), equal
    units on both axes, and the view kept when the figure is replaced; all else as plotted. *)
Theorem C50_layout :
  forall (A : arith) missing nan CS get_colorscale plotly_cmap str_num layout_of df y labels g cfg (f : figure A CS),
  create_mapper_figure A missing nan CS get_colorscale plotly_cmap str_num layout_of df y labels g cfg = Ok f ->
  attr (f_layout f) "width" = ANone /\ attr (f_layout f) "height" = ANone /\
  attr (f_layout f) "autosize" = ABool true /\ attr (f_layout f) "xaxis.scaleanchor" = AStr "y" /\
  attr (f_layout f) "uirevision" = AStr "constant" /\
  exists m f0, mp_graph m = g /\ mp_dim m = plot_dimensions cfg /\
    plot_plotly A CS get_colorscale plotly_cmap str_num m
      (CA2 (figure_colors A nan df y labels)) (NSList (figure_sizes A)) (TList (figure_titles A nan df y labels))
      (nanmean A missing nan) (CMList ["Viridis"; "Cividis"; "Jet"; "Plasma"; "RdBu"]%string) None (Some 800%Z) = Ok f0 /\
    f_traces f = f_traces f0 /\ f_menus f = f_menus f0 /\ f_sliders f = f_sliders f0 /\
    forall path, ~ In path ["width"; "height"; "autosize"; "xaxis.scaleanchor"; "uirevision"]%string ->
      attr (f_layout f) path = attr (f_layout f0) path.
Proof.
  intros A missing nan CS gc pc sn lo df y labels g cfg f H. unfold create_mapper_figure in H.
  apply bind_ok in H. destruct H as [m [Em H]]. apply bind_ok in H. destruct H as [f0 [E0 H]]. apply ok_eq in H. subst f.
  cbn [update_layout f_layout f_traces f_menus f_sliders].
  assert (N : NoDup (map fst (figure_layout A CS))).
  { cbn. repeat (constructor; [cbn; intuition discriminate|]). constructor. }
  assert (S : forall path v, In (path, v) (figure_layout A CS) -> attr (apply_patch (figure_layout A CS) (f_layout f0)) path = v)
    by (intros path v; apply attr_apply_same; exact N).
  do 5 (split; [apply S; cbn; auto 8|]).
  exists m, f0. unfold make_plot in Em. apply bind_ok in Em. destruct Em as [pos [Ep Em]]. apply ok_eq in Em. subst m.
  split; [reflexivity|]. split; [reflexivity|]. split; [exact E0|]. do 3 (split; [reflexivity|]).
  intros path K. apply attr_apply_other. exact K.
Qed.
Print Assumptions C50_layout.

(** ** C50: the slider of that figure offers the node sizes 0, 1/8, 2/8, ... 2; choosing one makes
    the traces those of plotting with it. *)
Theorem C50_sizes :
  forall missing nan CS get_colorscale plotly_cmap str_num layout_of df y labels g cfg (f : figure RA CS),
  create_mapper_figure RA missing nan CS get_colorscale plotly_cmap str_num layout_of df y labels g cfg = Ok f ->
  exists sl m, find_slider "slider_node_size" (f_sliders f) = Some sl /\ length (s_steps sl) = 17 /\ mp_graph m = g /\
    forall i b, nth_error (s_steps sl) i = Some b ->
      b_label b = str_num (INR i / 8)%R /\
      exists f', plot_plotly RA CS get_colorscale plotly_cmap str_num m
          (CA2 (figure_colors RA nan df y labels)) (NSNum (A := RA) (INR i / 8)%R) (TList (figure_titles RA nan df y labels))
          (nanmean RA missing nan) (CMList ["Viridis"; "Cividis"; "Jet"; "Plasma"; "RdBu"]%string) None (Some 800%Z) = Ok f' /\
        same_traces (f_traces (restyle b f)) (f_traces f').
Proof.
  intros missing nan CS gc pc sn lo df y labels g cfg f H.
  pose proof H as H'. unfold create_mapper_figure in H'. apply bind_ok in H'. destruct H' as [m [Em H']].
  apply bind_ok in H'. destruct H' as [f0 [E0 H']]. apply ok_eq in H'.
  destruct (C48_size_slider RA CS gc pc sn m _ _ _ _ _ _ _ f0 (figure_sizes RA) E0 eq_refl) as [sl [F [L [K _]]]].
  exists sl, m. subst f. split; [exact F|]. split; [rewrite L; reflexivity|].
  split; [unfold make_plot in Em; apply bind_ok in Em; destruct Em as [pos [_ Em]]; apply ok_eq in Em; subst m; reflexivity|].
  intros i b Eb. destruct (K i b Eb) as [s [f' [Es [El [_ [Ef T]]]]]].
  assert (Q : s = (INR i / 8)%R).
  { unfold figure_sizes in Es. rewrite nth_error_map in Es. destruct (nth_error (seq 0 17) i) as [j|] eqn:Ej; [|discriminate].
    assert (Lj : i < 17) by (rewrite <- (seq_length 17 0); apply nth_error_Some; congruence).
    apply (nth_error_nth _ _ 0) in Ej. rewrite seq_nth in Ej by exact Lj. cbn [option_map] in Es. injection Es as <-. subst j.
    rewrite INR_IZR_INZ. unfold eighth. cbn [RA mul div ofz Nat.add]. lra. }
  subst s. split; [exact El|]. exists f'. split; [exact Ef|]. exact T.
Qed.
Print Assumptions C50_sizes.

(** The figure of the iris page in [PropApp]: its layout and the labels of its slider. *)
Example C50_layout_example :
  match demo_app_figure with
  | Ok f => map (attr (f_layout f)) ["height"; "autosize"; "uirevision"]%string = [ANone; ABool true; AStr "constant"%string] /\
            option_map (fun sl => length (s_steps sl)) (find_slider "slider_node_size" (f_sliders f)) = Some 17
  | Err _ => False
  end.
Proof.
  vm_cast_no_check (conj (eq_refl [ANone (A := QA) (CS := string); ABool true; AStr "constant"%string]) (eq_refl (Some 17))). Qed.

(** ** C41: without a colour scale the nodes are drawn with "Jet", and there is no choice of scales. *)
Theorem C41_default_scale :
  forall (A : arith) CS get_colorscale plotly_cmap str_num (m : mapper_plot A) c ns ti agg w h (f : figure A CS),
  plot_plotly A CS get_colorscale plotly_cmap str_num m c ns ti agg CMNone w h = Ok f ->
  plot_plotly A CS get_colorscale plotly_cmap str_num m c ns ti agg (CMStr "Jet") w h = Ok f /\
  (exists et nt cs, f_traces f = [et; nt] /\ get_colorscale "Jet"%string = Ok cs /\ attr nt "marker.colorscale" = AScale cs /\
     attr nt "marker.line.colorscale" = AScale cs) /\
  exists mc, find_menu "menu_cmap" (f_menus f) = Some mc /\ m_buttons mc = [].
Proof.
  intros A CS gc pc sn m c ns ti agg w h f H. pose proof H as H0. apply plot_plotly_inv in H.
  destruct H as [cmaps [cc [titles [sizes [H1 [H2 [H3 [H4 H]]]]]]]].
  assert (Ec : cmaps = ["Jet"%string]) by (cbn in H1; apply ok_eq in H1; auto). subst cmaps.
  split; [rewrite (plot_plotly_intro A CS gc pc sn m c ns ti agg (CMStr "Jet") w h ["Jet"%string] cc titles sizes); auto|].
  pose proof (proj1 (plot_closed A CS gc pc sn m _ _ _ _ _ _ _ _) H) as [e [n [st [mc [mo [_ [_ [Es [E3 [E4 Ef]]]]]]]]]]. split.
  - subst f. exists (edge_patches A CS m st e), (node_patches A CS st n), (st_scale A CS st).
    split; [reflexivity|]. split.
    + unfold settings_of in Es. do 6 (apply bind_ok in Es; destruct Es as [? [_ Es]]).
      apply bind_ok in Es. destruct Es as [cm [Ecm Es]]. cbn in Ecm. apply ok_eq in Ecm. subst cm.
      apply bind_ok in Es. destruct Es as [cs [Ecs Es]]. apply ok_eq in Es. subst st. exact Ecs.
    + unfold node_patches. split; apply attr_apply_same; try (cbn; auto); repeat (constructor; [cbn; intuition discriminate|]); constructor.
  - assert (N1 : m_name mc = "menu_cmap"%string) by (apply cmap_menu_name in E3; exact E3).
    assert (N2 : m_name mo = "menu_color"%string) by (apply color_menu_name in E4; exact E4).
    destruct (find_controls A CS sn m e n st mc mo sizes w h N1 N2) as [F _]. exists mc. subst f. split; [exact F|].
    destruct (cmap_entries A CS gc pc m _ _ E3) as [L _]. cbn [map somes] in L.
    destruct (m_buttons mc) as [|b r]; [reflexivity|]. exfalso. revert L. destruct (pc "Jet"%string); cbn; discriminate.
Qed.
Print Assumptions C41_default_scale.

Definition plain_fig : res (figure QA string) :=
  plot_plotly QA string demo_scale demo_cmap demo_str (demo_plot 3) (CA2 demo_colors) (NSList (A := QA) [two]) (TList ["a"; "b"]%string) mean CMNone None None.
Example C41_default_scale_example :
  demo_read plain_fig 1 ["marker.colorscale"; "marker.cmax"]%string = [AScale "Jet"%string; ANum (A := QA) 4%Q].
Proof. vm_eq. Qed.

(** ** C41: the look of a plot: nodes are markers with a colour bar and texts, edges are lines without texts,
    there is no legend, and the size is as asked. *)
Theorem C41_look :
  forall (A : arith) CS get_colorscale plotly_cmap str_num (m : mapper_plot A) c ns ti agg cm w h (f : figure A CS),
  plot_plotly A CS get_colorscale plotly_cmap str_num m c ns ti agg cm w h = Ok f ->
  exists et nt, f_traces f = [et; nt] /\
    attr nt "mode" = AStr "markers" /\ attr nt "hoverinfo" = AStr "text" /\ attr nt "marker.showscale" = ABool true /\
    attr nt "marker.reversescale" = ABool false /\ attr et "mode" = AStr "lines" /\ attr et "hoverinfo" = AStr "skip" /\
    attr (f_layout f) "showlegend" = ABool false /\ attr (f_layout f) "hovermode" = AStr "closest" /\ attr (f_layout f) "autosize" = ABool true /\
    attr (f_layout f) "font.color" = AStr "#2a3f5f" /\ attr (f_layout f) "paper_bgcolor" = AStr "white" /\ attr (f_layout f) "plot_bgcolor" = AStr "white" /\
    attr (f_layout f) "width" = match w with Some z => AInt z | None => ANone end /\
    attr (f_layout f) "height" = match h with Some z => AInt z | None => ANone end.
Proof.
  intros A CS gc pc sn m c ns ti agg cm w h f H. apply plot_plotly_inv in H.
  destruct H as [cmaps [cc [titles [sizes [_ [_ [_ [_ H]]]]]]]].
  pose proof (proj1 (plot_closed A CS gc pc sn m _ _ _ _ _ _ _ _) H) as [e [n [st [mc [mo [E0 [_ [_ [_ [_ Ef]]]]]]]]]]. subst f.
  exists (edge_patches A CS m st e), (node_patches A CS st n). split; [reflexivity|].
  unfold new_figure in E0. apply bind_ok in E0. destruct E0 as [na [_ E0]]. apply bind_ok in E0. destruct E0 as [ea [_ E0]].
  apply bind_ok in E0. destruct E0 as [e' [He E0]]. apply bind_ok in E0. destruct E0 as [n' [Hn E0]].
  inversion E0; subst e' n'; clear E0.
  assert (N : forall path v, ~ In path (map fst (scale_patch A CS st)) -> ~ In path (map fst (color_patch A CS st)) ->
    ~ In path (map fst (size_patch A CS st)) -> ~ In path (map fst (title_patch A CS st)) -> attr n path = v -> attr (node_patches A CS st n) path = v).
  { intros path v N1 N2 N3 N4 E. unfold node_patches. rewrite !attr_apply_other by assumption. exact E. }
  assert (E : forall path v, ~ In path ["line.colorscale"; "line.color"; "line.cmin"; "line.cmax"; "marker.colorscale"; "marker.line.colorscale"]%string ->
    attr e path = v -> attr (edge_patches A CS m st e) path = v).
  { intros path v N1 Ev. unfold edge_patches. destruct (mp_dim m =? 3); [|destruct (mp_dim m =? 2)]; rewrite ?attr_apply_other; auto;
      cbn in *; intuition. }
  unfold nodes_trace in Hn. apply bind_ok in Hn. destruct Hn as [x [_ Hn]]. apply bind_ok in Hn. destruct Hn as [y [_ Hn]].
  apply bind_ok in Hn. destruct Hn as [s [_ Hn]]. cbv zeta in Hn.
  unfold edges_trace in He. apply bind_ok in He. destruct He as [xe [_ He]]. apply bind_ok in He. destruct He as [ye [_ He]]. cbv zeta in He.
  assert (Rn : attr n "mode" = AStr "markers" /\ attr n "hoverinfo" = AStr "text" /\ attr n "marker.showscale" = ABool true /\ attr n "marker.reversescale" = ABool false).
  { destruct (mp_dim m =? 3); [apply bind_ok in Hn; destruct Hn as [z [_ Hn]]|]; apply ok_eq in Hn; subst n; repeat split. }
  assert (Re : attr e "mode" = AStr "lines" /\ attr e "hoverinfo" = AStr "skip").
  { destruct (mp_dim m =? 3); [apply bind_ok in He; destruct He as [z [_ He]]|]; apply ok_eq in He; subst e; repeat split. }
  destruct Rn as [R1 [R2 [R3 R4]]]. destruct Re as [R5 R6].
  do 4 (split; [apply N; try assumption; cbn; intuition discriminate|]).
  do 2 (split; [apply E; try assumption; cbn; intuition discriminate|]).
  cbn [plotted f_layout]. unfold layout_patches.
  assert (L : forall path v, path <> "width"%string -> path <> "height"%string -> attr (layout A CS) path = v ->
    attr (apply_patch (opt_attr A CS "height" h) (apply_patch (opt_attr A CS "width" w) (layout A CS))) path = v).
  { intros path v N1 N2 Ev. rewrite !attr_apply_other; [exact Ev| |]; [destruct w|destruct h]; cbn; intuition. }
  do 6 (split; [apply L; [discriminate|discriminate|reflexivity]|]).
  split; destruct w; destruct h; reflexivity.
Qed.
Print Assumptions C41_look.

(** Choosing an entry in the browser, [Plotly.relayout(gd, update)] (third party). *)
Definition relayout {A CS} (b : button A CS) (f : figure A CS) : figure A CS :=
  update_layout (concat (map (fun p => match snd p with v :: _ => [(fst p, v)] | [] => [] end) (b_args b))) f.

(** ** C48: the menu for dark mode has the entries "Light", shown at first, and "Dark"; choosing "Light" changes
    nothing, "Dark" only the colours of text and background, and "Light" then gives back the plot. *)
Theorem C48_dark_mode :
  forall (A : arith) CS get_colorscale plotly_cmap str_num (m : mapper_plot A) c ns ti agg cm w h (f : figure A CS),
  plot_plotly A CS get_colorscale plotly_cmap str_num m c ns ti agg cm w h = Ok f ->
  exists md light dark, find_menu "menu_dark_mode" (f_menus f) = Some md /\ m_buttons md = [light; dark] /\ m_active md = 0 /\
    b_label light = "Light"%string /\ b_label dark = "Dark"%string /\ b_method light = "relayout"%string /\ b_method dark = "relayout"%string /\
    (forall path, attr (f_layout (relayout light f)) path = attr (f_layout f) path) /\
    (forall path, attr (f_layout (relayout light (relayout dark f))) path = attr (f_layout f) path) /\
    attr (f_layout (relayout dark f)) "paper_bgcolor" = AStr "black" /\ attr (f_layout (relayout dark f)) "plot_bgcolor" = AStr "black" /\
    attr (f_layout (relayout dark f)) "font.color" = AStr "#f2f5fa" /\
    forall path, ~ In path ["paper_bgcolor"; "plot_bgcolor"; "font.color"]%string -> attr (f_layout (relayout dark f)) path = attr (f_layout f) path.
Proof.
  intros A CS gc pc sn m c ns ti agg cm w h f H.
  destruct (C41_look A CS gc pc sn m c ns ti agg cm w h f H) as [et [nt [_ [_ [_ [_ [_ [_ [_ [_ [_ [_ [C1 [C2 [C3 _]]]]]]]]]]]]]]].
  apply plot_plotly_inv in H. destruct H as [cmaps [cc [titles [sizes [_ [_ [_ [_ H]]]]]]]].
  pose proof (proj1 (plot_closed A CS gc pc sn m _ _ _ _ _ _ _ _) H) as [e [n [st [mc [mo [_ [_ [_ [E3 [E4 Ef]]]]]]]]]].
  assert (N1 : m_name mc = "menu_cmap"%string) by (apply cmap_menu_name in E3; exact E3).
  assert (N2 : m_name mo = "menu_color"%string) by (apply color_menu_name in E4; exact E4).
  exists (ui_menu_dark_mode A CS). eexists _, _. split; [subst f; cbn; rewrite ?N1, ?N2; reflexivity|]. split; [reflexivity|]. do 5 (split; [reflexivity|]). clear Ef H.
  set (p3 := fun s1 s2 s3 => [("font.color", AStr s1); ("paper_bgcolor", AStr s2); ("plot_bgcolor", AStr s3)]%string : attrs A CS).
  assert (Nd : forall s1 s2 s3, NoDup (map fst (p3 s1 s2 s3))).
  { intros. cbn. repeat (constructor; [cbn; intuition discriminate|]). constructor. }
  assert (St : forall s1 s2 s3 t, attr (apply_patch (p3 s1 s2 s3) t) "font.color" = AStr s1 /\ attr (apply_patch (p3 s1 s2 s3) t) "paper_bgcolor" = AStr s2 /\
    attr (apply_patch (p3 s1 s2 s3) t) "plot_bgcolor" = AStr s3).
  { intros. repeat split; apply attr_apply_same; try apply Nd; cbn; auto. }
  assert (Ot : forall s1 s2 s3 t path, ~ In path ["paper_bgcolor"; "plot_bgcolor"; "font.color"]%string -> attr (apply_patch (p3 s1 s2 s3) t) path = attr t path).
  { intros s1 s2 s3 t path N. apply attr_apply_other. cbn in *. intuition. }
  assert (Dc : forall path, In path ["paper_bgcolor"; "plot_bgcolor"; "font.color"]%string \/ ~ In path ["paper_bgcolor"; "plot_bgcolor"; "font.color"]%string).
  { intro path. destruct (in_dec string_dec path ["paper_bgcolor"; "plot_bgcolor"; "font.color"]%string); auto. }
  assert (Back : forall t path, (forall p, ~ In p ["paper_bgcolor"; "plot_bgcolor"; "font.color"]%string -> attr t p = attr (f_layout f) p) ->
    attr (apply_patch (p3 "#2a3f5f" "white" "white")%string t) path = attr (f_layout f) path).
  { intros t path Q. destruct (St "#2a3f5f"%string "white"%string "white"%string t) as [S1 [S2 S3]].
    destruct (Dc path) as [I|I]; [|rewrite Ot by exact I; apply Q; exact I].
    cbn in I. destruct I as [<-|[<-|[<-|[]]]]; congruence. }
  split; [intro path; apply (Back (f_layout f)); auto|].
  split; [intro path; apply (Back (apply_patch (p3 "#f2f5fa" "black" "black")%string (f_layout f))); intros p N; apply Ot; exact N|].
  destruct (St "#f2f5fa"%string "black"%string "black"%string (f_layout f)) as [S1 [S2 S3]].
  split; [exact S2|]. split; [exact S3|]. split; [exact S1|]. intros path N. apply (Ot "#f2f5fa"%string "black"%string "black"%string). exact N.
Qed.
Print Assumptions C48_dark_mode.
