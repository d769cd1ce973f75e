(** Proofs about runs and figures of the web application. *)
From Coq Require Import String Lia Bool.
From Verif Require Import Base BaseFacts Dict DictFacts ModelArith ModelCore SpecCore ModelDraw ModelPlotly SpecPlot ModelApp SpecApp AppProp
  PropPlot PropUpdate.
Open Scope nat_scope.

Section Run.
Variable A : arith.
Variable missing : num A -> bool.
Variable nan : num A.
Variables pca umap : Z -> matrix A -> res (matrix A).
Variable scaler : matrix A -> res (matrix A).
Variable mapper_fit : cover_spec A -> clust_spec A -> matrix A -> matrix A -> res graph.
Notation run := (run_mapper A nan pca umap scaler mapper_fit).
Notation numpy := (to_numpy A nan).

(** *** Selections *)
Lemma the_lens_same c c' : same_selection c c' -> the_lens A pca umap c = the_lens A pca umap c'.
Proof.
  intros [_ E _ _ _ _ H1 H2 _ _ _ _ _ _]. unfold the_lens. rewrite <- E.
  destruct (String.eqb_spec (lens_type c) "Identity"); [reflexivity|].
  destruct (String.eqb_spec (lens_type c) "PCA"); [rewrite H1 by assumption; reflexivity|].
  destruct (String.eqb_spec (lens_type c) "UMAP"); [rewrite H2 by assumption; reflexivity|reflexivity].
Qed.
Lemma the_cover_same c c' : same_selection c c' -> the_cover A c = the_cover A c'.
Proof.
  intros [_ _ _ E _ _ _ _ H1 H2 H3 _ _ _]. unfold the_cover. rewrite <- E.
  destruct (String.eqb_spec (cover_type c) "Cubical Cover"); [destruct H1 as [-> ->]; [assumption|reflexivity]|].
  destruct (String.eqb_spec (cover_type c) "Ball Cover"); [rewrite H2 by assumption; reflexivity|].
  destruct (String.eqb_spec (cover_type c) "KNN Cover"); [rewrite H3 by assumption; reflexivity|reflexivity].
Qed.
Lemma the_clustering_same c c' : same_selection c c' -> the_clustering A c = the_clustering A c'.
Proof.
  intros [_ _ _ _ _ E _ _ _ _ _ H1 H2 H3]. unfold the_clustering. rewrite <- E.
  destruct (String.eqb_spec (clustering_type c) "Skip"); [reflexivity|].
  destruct (String.eqb_spec (clustering_type c) "KMeans"); [rewrite H1 by assumption; reflexivity|].
  destruct (String.eqb_spec (clustering_type c) "DBSCAN"); [destruct H2 as [-> ->]; [assumption|reflexivity]|].
  destruct (String.eqb_spec (clustering_type c) "Agglomerative Clustering"); [rewrite H3 by assumption; reflexivity|reflexivity].
Qed.
Lemma run_same c c' df : same_selection c c' -> run df c = run df c'.
Proof.
  intro S. unfold run_mapper. rewrite (the_lens_same c c' S), (the_cover_same c c' S), (the_clustering_same c c' S).
  destruct S as [-> -> -> _ -> _ _ _ _ _ _ _ _ _]. reflexivity.
Qed.

Lemma drop_nil d : drop A [] d = d.
Proof. destruct d as [n cols]. unfold drop. cbn. f_equal. induction cols; cbn; congruence. Qed.
Lemma run_data df (c : config A) : (match excluded_columns c with [] => df | names => drop A names df end) = drop A (excluded_columns c) df.
Proof. destruct (excluded_columns c); [rewrite drop_nil|]; reflexivity. Qed.
Lemma run_excluded (c : config A) df df' : is_empty df = is_empty df' -> drop A (excluded_columns c) df = drop A (excluded_columns c) df' -> run df c = run df' c.
Proof. intros E1 E2. unfold run_mapper. rewrite E1. rewrite (run_data df), (run_data df'), E2. reflexivity. Qed.

Lemma cover_known c : the_cover A c <> None <-> In (cover_type c) covers.
Proof.
  unfold the_cover, covers. destruct (String.eqb_spec (cover_type c) "Cubical Cover") as [->|N1]; [split; [cbn; auto|discriminate]|].
  destruct (String.eqb_spec (cover_type c) "Ball Cover") as [->|N2]; [split; [cbn; auto|discriminate]|].
  destruct (String.eqb_spec (cover_type c) "KNN Cover") as [->|N3]; [split; [cbn; auto|discriminate]|].
  split; [contradiction|]. cbn. intros [E|[E|[E|[]]]]; symmetry in E; contradiction.
Qed.
Lemma clustering_known c : the_clustering A c <> None <-> In (clustering_type c) clusterings.
Proof.
  unfold the_clustering, clusterings. destruct (String.eqb_spec (clustering_type c) "Skip") as [->|N1]; [split; [cbn; auto|discriminate]|].
  destruct (String.eqb_spec (clustering_type c) "KMeans") as [->|N2]; [split; [cbn; auto|discriminate]|].
  destruct (String.eqb_spec (clustering_type c) "DBSCAN") as [->|N3]; [split; [cbn; auto|discriminate]|].
  destruct (String.eqb_spec (clustering_type c) "Agglomerative Clustering") as [->|N4]; [split; [cbn; auto 6|discriminate]|].
  split; [contradiction|]. cbn. intros [E|[E|[E|[E|[]]]]]; symmetry in E; contradiction.
Qed.
Lemma run_none df c : run df c = Ok None <-> is_empty df = true \/ ~ In (cover_type c) covers \/ ~ In (clustering_type c) clusterings.
Proof.
  rewrite <- cover_known, <- clustering_known. unfold run_mapper. destruct (is_empty df); [split; auto|].
  destruct (the_cover A c) as [cv|]; [|split; [right; left; intro K; apply K; reflexivity|reflexivity]].
  destruct (the_clustering A c) as [cl|]; [|split; [right; right; intro K; apply K; reflexivity|reflexivity]].
  split.
  - cbv zeta. intro H. apply bind_ok in H. destruct H as [y [_ H]]. apply bind_ok in H. destruct H as [y' [_ H]].
    apply bind_ok in H. destruct H as [X' [_ H]]. apply bind_ok in H. destruct H as [g [_ H]]. discriminate.
  - intros [K|[K|K]]; [discriminate| |]; exfalso; apply K; discriminate.
Qed.

(** *** Rows and columns *)
Lemma full_drop names d : full_frame d -> full_frame (drop A names d).
Proof. intros F n c I. cbn [drop fr_cols fr_rows] in *. apply filter_In in I. apply (F n c). tauto. Qed.
Lemma numpy_length d : length (numpy d) = fr_rows d.
Proof. unfold to_numpy. rewrite map_length, seq_length. reflexivity. Qed.
Lemma numpy_rows d : full_frame d -> rows_of (fr_cols d) (fr_rows d) (numpy d).
Proof.
  intro F. split; [apply numpy_length|]. intros i row E. unfold to_numpy in E. rewrite nth_error_map in E.
  destruct (nth_error (seq 0 (fr_rows d)) i) as [k|] eqn:Ek; [|discriminate]. injection E as <-.
  assert (Hi : i < fr_rows d) by (apply nth_error_lt in Ek; rewrite seq_length in Ek; exact Ek).
  assert (k = i) by (rewrite (nth_error_nth' _ 0) in Ek by (rewrite seq_length; exact Hi); rewrite seq_nth in Ek by exact Hi; injection Ek as <-; reflexivity).
  subst k. assert (G : forall name c, In (name, c) (fr_cols d) -> exists l, c = CNum l /\ length l = fr_rows d) by exact F. revert G.
  generalize (fr_cols d) as cols. induction cols as [|[name c] cols IH]; intro G; cbn [map]; constructor.
  - destruct (G name c (or_introl eq_refl)) as [l [-> L]]. exists l. split; [reflexivity|]. cbn [snd cell]. apply nth_error_nth'. lia.
  - apply IH. intros n' c' I. apply (G n' c'). right. exact I.
Qed.
Lemma lens_frame_full lens y : full_frame (lens_frame A nan lens y).
Proof.
  intros name c I. cbn [lens_frame fr_cols fr_rows] in *. apply in_map_iff in I. destruct I as [i [E I]]. injection E as _ <-.
  eexists. split; [reflexivity|]. unfold transpose_col. apply map_length.
Qed.
Lemma lens_frame_rows lens y : rectangular y -> rows_of (fr_cols (lens_frame A nan lens y)) (length y) y.
Proof.
  intros [w R]. split; [reflexivity|]. intros i row E. cbn [lens_frame fr_cols].
  assert (Lr : length row = width A y).
  { rewrite (R row) by (apply nth_error_In in E; exact E). unfold width. destruct y as [|r y]; [destruct i; discriminate|]. symmetry. apply R. left. reflexivity. }
  rewrite <- Lr. assert (Q : forall r s, row = skipn s row ++ r -> True) by auto. clear Q.
  assert (G : forall (r : list (num A)) s, (forall k, k < length r -> nth_error row (s + k) = nth_error r k) ->
    Forall2 (fun c x => exists l, snd c = CNum l /\ nth_error l i = Some x)
      (map (fun i => ((lens ++ " " ++ ModelApp.str_nat i)%string, CNum (transpose_col A nan y i))) (seq s (length r))) r).
  { induction r as [|x r IH]; intros s K; cbn [length seq map]; constructor.
    - eexists. split; [reflexivity|]. unfold transpose_col. rewrite nth_error_map, E. cbn [option_map].
      specialize (K 0 ltac:(cbn; lia)). rewrite Nat.add_0_r in K. cbn in K. rewrite (nth_error_nth _ _ _ K). reflexivity.
    - apply IH. intros k Hk. specialize (K (S k) ltac:(cbn; lia)). rewrite Nat.add_succ_r in K. exact K. }
  apply (G row 0). intros k _. reflexivity.
Qed.
Lemma lens_frame_names lens y i c : nth_error (fr_cols (lens_frame A nan lens y)) i = Some c ->
  fst c = (lens ++ " " ++ ModelApp.str_nat i)%string.
Proof.
  cbn [lens_frame fr_cols]. rewrite nth_error_map. intro E. destruct (nth_error (seq 0 (width A y)) i) as [k|] eqn:Ek; [|discriminate].
  injection E as <-. cbn [fst]. assert (Hi : i < width A y) by (apply nth_error_lt in Ek; rewrite seq_length in Ek; exact Ek).
  rewrite (nth_error_nth' _ 0) in Ek by (rewrite seq_length; exact Hi). rewrite seq_nth in Ek by exact Hi. injection Ek as <-. reflexivity.
Qed.

Lemma rows_of_rect cols n X : rows_of (A := A) cols n X -> rectangular X.
Proof.
  intros [_ R]. exists (length cols). intros row I. apply In_nth_error in I. destruct I as [i E]. specialize (R i row E).
  clear E. induction R; cbn; congruence.
Qed.

Lemma run_some df cfg g df_y : run df cfg = Ok (Some (g, df_y)) ->
  exists cover clustering y y' X',
    selected cfg cover clustering /\ is_empty df = false /\
    lens_applied pca umap cfg (numpy (drop A (excluded_columns cfg) df)) y /\ df_y = lens_frame A nan (lens_type cfg) y /\
    scaled scaler (cover_scale_data cfg) y y' /\ scaled scaler (clustering_scale_data cfg) (numpy (drop A (excluded_columns cfg) df)) X' /\
    mapper_fit cover clustering X' y' = Ok g.
Proof.
  unfold run_mapper. destruct (is_empty df) eqn:Ee; [discriminate|]. destruct (the_cover A cfg) as [cover|] eqn:Ec; [|discriminate].
  destruct (the_clustering A cfg) as [clustering|] eqn:El; [|discriminate]. cbv zeta. rewrite run_data.
  intro H. apply bind_ok in H. destruct H as [y [Ey H]]. apply bind_ok in H. destruct H as [y' [Ey' H]].
  apply bind_ok in H. destruct H as [X' [EX' H]]. apply bind_ok in H. destruct H as [g' [Eg H]]. injection H as <- <-.
  exists cover, clustering, y, y', X'. split; [|split; [reflexivity|split; [|split; [reflexivity|]]]].
  - split.
    + unfold the_cover in Ec. destruct (String.eqb_spec (cover_type cfg) "Cubical Cover"); [injection Ec as <-; auto|].
      destruct (String.eqb_spec (cover_type cfg) "Ball Cover"); [injection Ec as <-; auto|].
      destruct (String.eqb_spec (cover_type cfg) "KNN Cover"); [injection Ec as <-; auto|discriminate].
    + unfold the_clustering in El. destruct (String.eqb_spec (clustering_type cfg) "Skip"); [injection El as <-; auto|].
      destruct (String.eqb_spec (clustering_type cfg) "KMeans"); [injection El as <-; auto|].
      destruct (String.eqb_spec (clustering_type cfg) "DBSCAN"); [injection El as <-; auto|].
      destruct (String.eqb_spec (clustering_type cfg) "Agglomerative Clustering"); [injection El as <-; auto 6|discriminate].
  - unfold the_lens in Ey. destruct (String.eqb_spec (lens_type cfg) "Identity"); [injection Ey as <-; left; auto|].
    destruct (String.eqb_spec (lens_type cfg) "PCA"); [right; left; auto|].
    destruct (String.eqb_spec (lens_type cfg) "UMAP"); [right; right; left; auto|]. right. right. right. split; [|exact Ey].
    cbn. intros [E|[E|[E|[]]]]; symmetry in E; contradiction.
  - split; [|split; [|exact Eg]].
    + unfold scaled. destruct (cover_scale_data cfg); [exact Ey'|injection Ey' as <-; reflexivity].
    + unfold scaled. destruct (clustering_scale_data cfg); [exact EX'|injection EX' as <-; reflexivity].
Qed.

Lemma run_shape df cfg g df_y : (forall n, row_wise (pca n)) -> (forall n, row_wise (umap n)) -> row_wise scaler ->
  full_frame df -> run df cfg = Ok (Some (g, df_y)) ->
  full_frame df_y /\ fr_rows df_y = fr_rows df /\
  exists cover clustering X' y', length X' = fr_rows df /\ mapper_fit cover clustering X' y' = Ok g.
Proof.
  intros Wp Wu Ws F H. apply run_some in H. destruct H as [cover [clustering [y [y' [X' [_ [_ [L [-> [_ [SX Eg]]]]]]]]]]].
  split; [apply lens_frame_full|]. set (X := numpy (drop A (excluded_columns cfg) df)) in *.
  assert (LX : length X = fr_rows df) by exact (numpy_length (drop A (excluded_columns cfg) df)). split.
  - cbn [lens_frame fr_rows]. rewrite <- LX. destruct L as [[_ ->]|[[_ L]|[[_ L]|[_ L]]]]; [reflexivity| | |].
    + apply (Wp _ _ _ L).
    + apply (Wu _ _ _ L).
    + apply (Wp _ _ _ L).
  - exists cover, clustering, X', y'. split; [|exact Eg]. unfold scaled in SX. destruct (clustering_scale_data cfg); [|subst X'; exact LX].
    rewrite (proj1 (Ws _ _ SX)). exact LX.
Qed.

(** *** Side by side *)
Lemma pad_full n name c d : full_frame d -> fr_rows d = n -> In (name, c) (fr_cols d) -> pad A nan n c = c.
Proof. intros F E I. destruct (F name c I) as [l [-> L]]. cbn [pad]. rewrite L, E, Nat.sub_diag. cbn. rewrite app_nil_r. reflexivity. Qed.
Lemma concat_full labels y df : full_frame labels -> full_frame y -> full_frame df ->
  fr_rows y = fr_rows df -> fr_rows labels = fr_rows df \/ fr_cols labels = [] /\ fr_rows labels <= fr_rows df ->
  concat_cols A nan [labels; y; df] = mkframe (fr_rows df) (fr_cols labels ++ fr_cols y ++ fr_cols df) /\
  full_frame (concat_cols A nan [labels; y; df]).
Proof.
  intros Fl Fy Fd Ey El.
  assert (P : forall d, full_frame d -> fr_rows d = fr_rows df -> map (fun c => (fst c, pad A nan (fr_rows df) (snd c))) (fr_cols d) = fr_cols d).
  { intros d F E. rewrite <- (map_id (fr_cols d)) at 2. apply map_ext_in. intros [name c] I. cbn [fst snd]. rewrite (pad_full _ name c d F E I). reflexivity. }
  assert (M : fold_right Nat.max 0 (map fr_rows [labels; y; df]) = fr_rows df) by (cbn; lia).
  assert (Q : concat_cols A nan [labels; y; df] = mkframe (fr_rows df) (fr_cols labels ++ fr_cols y ++ fr_cols df)).
  { unfold concat_cols. rewrite M. cbn [map concat]. rewrite (P y Fy Ey), (P df Fd eq_refl), app_nil_r. f_equal. f_equal.
    destruct El as [El|[El _]]; [apply P; assumption|rewrite El; reflexivity]. }
  split; [exact Q|]. rewrite Q. intros name c I. cbn [fr_cols fr_rows] in *. apply in_app_iff in I. destruct I as [I|I].
  - destruct (Fl name c I) as [l [-> L]]. exists l. split; [reflexivity|]. destruct El as [El|[El _]]; [congruence|rewrite El in I; destruct I].
  - apply in_app_iff in I. destruct I as [I|I]; [|exact (Fd name c I)]. destruct (Fy name c I) as [l [-> L]]. exists l. split; [reflexivity|congruence].
Qed.

(** *** The figure *)
Variable CS : Type.
Variable get_colorscale : string -> res CS.
Variable plotly_cmap : string -> option string.
Variable str_num : num A -> string.
Variable layout_of : Z -> Z -> nat -> graph -> list (list (num A)).
Notation draw := (create_mapper_figure A missing nan CS get_colorscale plotly_cmap str_num layout_of).
Notation cmaps := ["Viridis"; "Cividis"; "Jet"; "Plasma"; "RdBu"]%string.
Hypothesis scales : forall name, In name cmaps -> exists cs, get_colorscale name = Ok cs.
Hypothesis menu_scales : forall name name', In name cmaps -> plotly_cmap name = Some name' -> exists cs, get_colorscale name' = Ok cs.
Hypothesis laid_out : forall iterations seed dim g,
  length (g_nodes g) <= length (layout_of iterations seed dim g) /\ forall row, In row (layout_of iterations seed dim g) -> dim <= length row.

Lemma column_is d i name l : full_frame d -> nth_error (fr_cols d) i = Some (name, CNum l) ->
  is_column (mkcolors (numpy d) (length (fr_cols d))) i l.
Proof.
  intros F E. split; [apply nth_error_lt in E; exact E|]. cbn [c_rows]. destruct (numpy_rows d F) as [L R].
  assert (Ll : length l = fr_rows d) by (apply nth_error_In in E; destruct (F _ _ E) as [l' [K K']]; injection K as <-; exact K').
  assert (G : forall (rows : list (list (num A))) (vs : list (num A)), length rows = length vs ->
    (forall k row x, nth_error rows k = Some row -> nth_error vs k = Some x -> nth_error row i = Some x) ->
    Forall2 (fun row x => nth_error row i = Some x) rows vs).
  { induction rows as [|r rows IH]; intros [|v vs] Lr K; try discriminate; constructor.
    - apply (K 0); reflexivity.
    - apply IH; [cbn in Lr; lia|]. intros k row x. apply (K (S k)). }
  apply G; [congruence|]. intros k row x Er Ex. specialize (R k row Er).
  clear G L Ll Er. revert i E. induction R as [|c v cols vs [l' [K1 K2]] _ IH]; intros [|i] E; try discriminate.
  - cbn in E. injection E as ->. cbn in K1. injection K1 as <-. cbn. congruence.
  - cbn [nth_error] in *. apply IH. exact E.
Qed.
Lemma is_column_unique c i col col' : is_column (A := A) c i col -> is_column c i col' -> col = col'.
Proof.
  intros [_ H] [_ H']. revert col' H'. induction H as [|r x rs xs E _ IH]; intros [|x' xs'] H'; inversion H'; subst; [reflexivity|].
  f_equal; [congruence|auto].
Qed.

Lemma figure_total labels y df g cfg (S : Type) (X : list S) opens clust :
  full_frame labels -> full_frame y -> full_frame df -> is_empty df = false -> fr_rows y = fr_rows df ->
  fr_rows labels = fr_rows df \/ fr_cols labels = [] /\ fr_rows labels <= fr_rows df ->
  length X = fr_rows df -> mapper_graph X opens clust = Ok g -> plot_dimensions cfg = 2 \/ plot_dimensions cfg = 3 ->
  exists f m, draw df y labels g cfg = Ok f /\ mp_graph m = g /\ mp_dim m = plot_dimensions cfg /\ placed m /\
    exists f0, plot_plotly A CS get_colorscale plotly_cmap str_num m
      (CA2 (figure_colors A nan df y labels)) (NSList (figure_sizes A)) (TList (figure_titles A nan df y labels))
            (nanmean A missing nan) (CMList cmaps) None (Some 800%Z) = Ok f0 /\ f = update_layout (figure_layout A CS) f0.
Proof.
  intros Fl Fy Fd Ne Ry Rl LX Hg D. destruct (C41_mapper_graphs_drawable S X opens clust g Hg) as [W [Sy [_ At]]].
  destruct (laid_out (plot_iterations cfg) (plot_seed cfg) (plot_dimensions cfg) g) as [L1 L2].
  destruct (C41_positions_total A (layout_of (plot_iterations cfg) (plot_seed cfg)) (fun _ _ => []) g (plot_dimensions cfg) W D L1 L2) as [m Em].
  destruct (C41_positions A _ _ g _ m W D Em) as [Gm [Dm [Pm _]]].
  destruct (concat_full labels y df Fl Fy Fd Ry Rl) as [Ec Fc].
  destruct (scales "Viridis"%string (or_introl eq_refl)) as [cs0 E0].
  assert (Q : exists f0, plot_plotly A CS get_colorscale plotly_cmap str_num m
      (CA2 (figure_colors A nan df y labels)) (NSList (figure_sizes A)) (TList (figure_titles A nan df y labels))
            (nanmean A missing nan) (CMList cmaps) None (Some 800%Z) = Ok f0).
  { assert (Lt : length (figure_titles A nan df y labels) = c_cols (figure_colors A nan df y labels))
      by (unfold figure_titles, figure_colors; cbn [c_cols]; apply map_length).
    apply (C41_plotly_total A CS get_colorscale plotly_cmap str_num m) with (cc := figure_colors A nan df y labels)
      (titles := figure_titles A nan df y labels) (sizes := figure_sizes A) (cmaps := cmaps) (cm0 := "Viridis"%string) (cs0 := cs0).
    all: try rewrite Gm; try rewrite Dm; auto; try reflexivity.
    - cbn [to_titles]. rewrite Lt, Nat.eqb_refl. reflexivity.
    - discriminate.
    - intros row I. unfold figure_colors in *. cbn [c_rows c_cols] in *. unfold to_numpy in I. apply in_map_iff in I. destruct I as [k [<- _]]. apply map_length.
    - unfold figure_colors. cbn [c_cols]. rewrite Ec. cbn [fr_cols]. rewrite !app_length. unfold is_empty in Ne. apply orb_false_iff in Ne.
      destruct Ne as [_ Ne]. destruct (fr_cols df); [discriminate|]. cbn. lia.
    - intros z s ids Hz. destruct (At z s ids Hz) as [P1 [P2 P3]]. split; [exact P1|]. split; [exact P2|]. intros j J.
      unfold figure_colors. cbn [c_rows]. rewrite numpy_length, Ec. cbn [fr_rows]. rewrite <- LX. auto.
    - intros xs _. eexists. reflexivity. }
  destruct Q as [f0 E]. exists (update_layout (figure_layout A CS) f0), m. split; [|split; [exact Gm|split; [exact Dm|split; [exact Pm|]]]].
  - unfold create_mapper_figure. rewrite Em. cbn [bind]. rewrite E. reflexivity.
  - exists f0. auto.
Qed.

Lemma figure_menu labels y df g cfg (S : Type) (X : list S) opens clust :
  full_frame labels -> full_frame y -> full_frame df -> is_empty df = false -> fr_rows y = fr_rows df ->
  fr_rows labels = fr_rows df \/ fr_cols labels = [] /\ fr_rows labels <= fr_rows df ->
  length X = fr_rows df -> mapper_graph X opens clust = Ok g -> plot_dimensions cfg = 2 \/ plot_dimensions cfg = 3 ->
  1 < length (fr_cols labels ++ fr_cols y ++ fr_cols df) ->
  exists f mo, draw df y labels g cfg = Ok f /\ find_menu "menu_color" (f_menus f) = Some mo /\
    length (m_buttons mo) = length (fr_cols labels ++ fr_cols y ++ fr_cols df) /\
    forall i name l, nth_error (fr_cols labels ++ fr_cols y ++ fr_cols df) i = Some (name, CNum l) ->
      exists b nt, nth_error (m_buttons mo) i = Some b /\ b_label b = name /\
        nth_error (f_traces (restyle b f)) 1 = Some nt /\
        forall k n s ids, nth_error (g_nodes g) k = Some (n, (s, ids)) ->
          exists xs, Forall2 (fun j x => nth_error l j = Some x) ids xs /\ shown nt "marker.color" k = Some (mean_of A missing nan xs).
Proof.
  intros Fl Fy Fd Ne Ry Rl LX Hg D C1.
  destruct (figure_total labels y df g cfg S X opens clust Fl Fy Fd Ne Ry Rl LX Hg D) as [f [m [Ef [Gm [Dm [Pm [f0 [E0 ->]]]]]]]].
  destruct (C41_mapper_graphs_drawable S X opens clust g Hg) as [W _].
  destruct (concat_full labels y df Fl Fy Fd Ry Rl) as [Ec Fc].
  assert (Lt : length (figure_titles A nan df y labels) = c_cols (figure_colors A nan df y labels))
    by (unfold figure_titles, figure_colors; cbn [c_cols]; apply map_length).
  destruct (C48_color_menu A CS get_colorscale plotly_cmap str_num m (CA2 (figure_colors A nan df y labels)) (NSList (figure_sizes A))
    (TList (figure_titles A nan df y labels)) (nanmean A missing nan) (CMList cmaps) None (Some 800%Z) f0
    (figure_colors A nan df y labels) (figure_titles A nan df y labels)) as [mo [Em [Lm [Eb _]]]].
  { rewrite Dm. exact D. } { exact E0. } { reflexivity. } { cbn [to_titles]. rewrite Lt, Nat.eqb_refl. reflexivity. }
  assert (Cc : c_cols (figure_colors A nan df y labels) = length (fr_cols labels ++ fr_cols y ++ fr_cols df))
    by (unfold figure_colors; cbn [c_cols]; rewrite Ec; reflexivity).
  assert (Lb : length (m_buttons mo) = length (fr_cols labels ++ fr_cols y ++ fr_cols df)).
  { rewrite Lm, Cc. destruct (Nat.ltb_spec 1 (length (fr_cols labels ++ fr_cols y ++ fr_cols df))); [reflexivity|lia]. }
  eexists _, mo. split; [exact Ef|]. split; [exact Em|]. split; [exact Lb|]. intros i name l Ei.
  assert (Hi : i < length (m_buttons mo)) by (rewrite Lb; apply nth_error_lt in Ei; exact Ei).
  destruct (nth_error_ex _ _ Hi) as [b B]. destruct (Eb i b B) as [col [t [f' [Ic [Et [El [_ [Ef' Sm]]]]]]]].
  assert (t = name).
  { unfold figure_titles in Et. rewrite Ec in Et. cbn [fr_cols] in Et. rewrite nth_error_map, Ei in Et. injection Et as <-. reflexivity. }
  assert (col = l).
  { apply (is_column_unique _ i col l Ic). unfold figure_colors. apply column_is with name; [exact Fc|]. rewrite Ec. exact Ei. }
  subst t col. destruct (C41_plotly_markers A CS get_colorscale plotly_cmap str_num m ltac:(rewrite Gm; exact W) _ _ _ _ _ _ _ _ Ef')
    as [cc [et [nt' [Ecc [Ets [_ [_ Sh]]]]]]].
  cbn [to_colors] in Ecc. injection Ecc as <-. rewrite Ets in Sm. cbn [f_traces update_layout restyle] in *.
  inversion Sm as [|t1 ? ts1 ? S1 Sm1 Q1]; subst. inversion Sm1 as [|t2 ? ts2 ? S2 Sm2 Q2]; subst.
  exists b, t2. split; [exact B|]. split; [reflexivity|]. split; [rewrite <- Q1; reflexivity|].
  intros k n s ids En. destruct (Sh k n s ids En) as [p [col [color [M [_ [[_ Ic'] [[xs [Hx Hagg]] [_ [_ [_ [_ [_ [Hc _]]]]]]]]]]]]].
  assert (col = l).
  { cbn [c_rows] in Ic'. clear -Ic'. revert col Ic'. induction l as [|x l IH]; intros col I; inversion I as [|? ? ? ? E I' Q1 Q2]; subst; [reflexivity|].
    cbn in E. injection E as <-. f_equal. apply IH. exact I'. }
  subst col. exists xs. split; [exact Hx|]. unfold nanmean in Hagg. injection Hagg as <-. unfold shown in *. rewrite S2. exact Hc.
Qed.
End Run.
