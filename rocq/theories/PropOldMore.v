(** More about the former web application (app/streamlit_app.py), C72: its data, lens and figure. *)
From Coq Require Import String Reals Lra Lia QArith.
From Verif Require Import Base BaseFacts Dict ModelArith ModelCore SpecCore ModelDraw ModelPlotly SpecPlot.
From Verif Require Import PlotlyFacts PlotlyProp PlotlyControls PlotlyUpdate PropPlot PropUpdate ModelApp SpecApp ModelEntry ModelOldApp SpecOldApp OldAppFacts PropOldApp.
Open Scope string_scope. Open Scope list_scope. Open Scope nat_scope.

Section OldMore.
Variable A : arith.
Variable missing : num A -> bool.
Variable nan : num A.
Variable num_dec : forall a b : num A, {a = b} + {a <> b}.
Variable lim : limits.
Variables digits iris : frame A * frame A.
Variable fetch_openml : string -> res (frame A * frame A).
Variable read_csv : Z -> res (frame A).
Variables pca umap : nat -> Z -> matrix A -> res (matrix A).
Variable algo : Type.
Variable repr : algo -> string.
Variable fit_transform : algo -> matrix A -> matrix A -> res graph.
Variable standard_scaler : matrix A -> res (matrix A).
Variable layout_of : Z -> Z -> nat -> graph -> list (list (num A)).
Variable CS : Type.
Variable get_colorscale : string -> res CS.
Variable plotly_cmap : string -> option string.
Variable str_num : num A -> string.
Notation run := (main_run A missing nan num_dec lim digits iris fetch_openml read_csv pca umap algo repr fit_transform standard_scaler layout_of CS
  get_colorscale plotly_cmap str_num).
Notation after_ := (after A missing nan num_dec lim digits iris fetch_openml read_csv pca umap algo repr fit_transform standard_scaler layout_of CS
  get_colorscale plotly_cmap str_num).
Notation own_graph := (own_graph A missing nan lim digits iris fetch_openml read_csv pca umap algo fit_transform standard_scaler).
Notation texts_tell := (texts_tell A algo repr fit_transform).
Notation old_plotly m df_X df_y agg sizes := (plot_plotly A CS get_colorscale plotly_cmap str_num m
  (CA2 (mkcolors (to_numpy A nan (concat_cols A nan [df_y; df_X])) (length (fr_cols (concat_cols A nan [df_y; df_X])))))
  sizes (TList (map fst (fr_cols (concat_cols A nan [df_y; df_X])))) agg (CMList ["Jet"; "Viridis"; "Cividis"]) (Some 600%Z) (Some 600%Z)).

(** What a source holds: two examples, the datasets of OpenML, files without labels. *)
Inductive held : source -> frame A -> frame A -> Prop :=
  | held_digits : held (Example_ "Digits") (fst digits) (snd digits)
  | held_iris : held (Example_ "Iris") (fst iris) (snd iris)
  | held_none name : name <> "Digits" -> name <> "Iris" -> held (Example_ name) no_frame no_frame
  | held_openml name X y : fetch_openml name = Ok (X, y) -> held (OpenML name) X y
  | held_csv f X : read_csv f = Ok X -> held (Csv (Some f)) X no_frame.

(** ** C72: the data on the page: that of the source, without columns that are not numeric or have no
    value, missing entries replaced by the mean ([fix_data], see C51). Without a file there is a message. *)
Theorem C72_data : forall is i, texts_tell (is ++ [i]) ->
  (forall p, snd (run i (after_ is)) = Ok (Page p) ->
     exists X y, held (i_source i) X y /\ o_X p = fix_data A missing nan X /\ o_y p = fix_data A missing nan y) /\
  (i_source i = Csv None -> snd (run i (after_ is)) = Ok Message).
Proof.
  intros is i T. split.
  - intros p H.
    destruct (run_page A missing nan num_dec lim digits iris fetch_openml read_csv pca umap algo repr fit_transform standard_scaler layout_of CS
      get_colorscale plotly_cmap str_num is i p T H) as [H1 _].
    unfold load_data in H1. apply bind_ok in H1. destruct H1 as [[X y] [E H1]]. apply bind_ok in H1. destruct H1 as [u [_ H1]].
    cbn [fst snd] in H1. inversion H1 as [[Ex Ey]]. exists X, y. split; [|auto].
    destruct (i_source i) as [name|name|[f|]]; [| |apply bind_ok in E; destruct E as [X' [E1 E2]]|discriminate].
    + inversion E as [E']. destruct (String.eqb_spec name "Digits") as [N1|N1]; [rewrite N1; replace X with (fst digits) by (rewrite E'; reflexivity); replace y with (snd digits) by (rewrite E'; reflexivity); apply held_digits|].
      destruct (String.eqb_spec name "Iris") as [N2|N2]; [rewrite N2; replace X with (fst iris) by (rewrite E'; reflexivity); replace y with (snd iris) by (rewrite E'; reflexivity); apply held_iris|].
      inversion E'; subst. apply held_none; assumption.
    + apply held_openml, E.
    + inversion E2; subst. apply held_csv, E1.
  - intro E.
    assert (T0 : texts_tell is) by (intros a b Ia Ib; apply T; apply in_or_app; auto).
    pose proof (sound_after A missing nan num_dec lim digits iris fetch_openml read_csv pca umap algo repr fit_transform standard_scaler layout_of CS
      get_colorscale plotly_cmap str_num is T0) as So.
    unfold main_run. set (ld := load_data A missing nan lim digits iris fetch_openml read_csv) in *.
    pose proof (cached_value source_dec (Some 1) (i_source i) (ld (i_source i)) (c_data (after_ is))
      (so_data _ _ _ _ _ _ _ _ _ _ _ _ _ _ _ _ _ _ So (i_source i))) as Vd.
    destruct (cached source_dec (Some 1) (i_source i) (ld (i_source i)) (c_data (after_ is))) as [cd r]. cbn [fst snd] in Vd. subst r.
    rewrite E. reflexivity.
Qed.

(** ** C72: the lens: PCA or UMAP with the chosen number of components and random state if the data has
    at least so many columns, else the data itself; both from the data before scaling. *)
Theorem C72_lens : forall i g, own_graph i g -> exists df_X df_y y X' y',
  load_data A missing nan lim digits iris fetch_openml read_csv (i_source i) = Ok (df_X, df_y) /\
  (let X := to_numpy A nan df_X in
   match i_lens i with
   | LensIdentity => y = X
   | LensPca n seed => n <= length (fr_cols df_X) /\ pca n seed X = Ok y \/ length (fr_cols df_X) < n /\ y = X
   | LensUmap n seed => n <= length (fr_cols df_X) /\ umap n seed X = Ok y \/ length (fr_cols df_X) < n /\ y = X
   end /\
   (i_scale_clustering i = true /\ standard_scaler X = Ok X' \/ i_scale_clustering i = false /\ X' = X) /\
   (i_scale_cover i = true /\ standard_scaler y = Ok y' \/ i_scale_cover i = false /\ y' = y)) /\
  fit_transform (i_algo i) X' y' = Ok g.
Proof.
  intros i g [df_X [df_y [y [El [Ey Ev]]]]]. unfold compute_mapper in Ev. apply bind_ok in Ev. destruct Ev as [X' [E1 Ev]].
  apply bind_ok in Ev. destruct Ev as [y' [E2 Ev]]. exists df_X, df_y, y, X', y'. split; [exact El|]. split; [|exact Ev]. cbv zeta.
  split; [|split].
  - unfold lens_values in Ey. destruct (i_lens i) as [|n seed|n seed]; [inversion Ey; reflexivity| |];
    destruct (Nat.ltb_spec (length (fr_cols df_X)) n); [right|left|right|left]; split; try assumption; inversion Ey; reflexivity.
  - destruct (i_scale_clustering i); [left|right]; split; auto. inversion E1; reflexivity.
  - destruct (i_scale_cover i); [left|right]; split; auto. inversion E2; reflexivity.
Qed.

(** Figures kept: that of some positions, colours and aggregation. *)
Definition figs (is : list (inputs A algo)) (c : caches A CS) : Prop :=
  forall k f, In (k, f) (c_fig c) -> exists j m colors, In j is /\ k = (mp_pos m, colors, i_agg_name j) /\
    compute_fig A nan CS get_colorscale plotly_cmap str_num m colors (i_agg j) = Ok f.
Lemma figs_run is c i : figs is c -> figs (is ++ [i]) (fst (run i c)).
Proof.
  intro F. assert (F' : figs (is ++ [i]) c).
  { intros k f K. destruct (F k f K) as [j [m [colors [J Q]]]]. exists j, m, colors. split; [apply in_or_app; auto|exact Q]. }
  unfold main_run.
  destruct (cached source_dec _ _ _ _) as [cd [[df_X df_y]|e]]; [|destruct e; exact F'].
  destruct (lens_values _ _ _ _ _ _) as [y|e]; [|exact F'].
  destruct (cached (mapper_key_dec A num_dec) _ _ _ _) as [cg [g|e]]; [|exact F'].
  destruct (cached plot_key_dec _ _ _ _) as [cp [m|e]]; [|exact F'].
  pose proof (cached_entries (fig_key_dec A num_dec) None (mp_pos m, concat_cols A nan [df_y; df_X], i_agg_name i)
    (compute_fig A nan CS get_colorscale plotly_cmap str_num m (concat_cols A nan [df_y; df_X]) (i_agg i)) (c_fig c)) as En.
  cbv zeta. destruct (cached (fig_key_dec A num_dec) _ _ _ _) as [cf r]. cbn [fst] in En.
  assert (G : forall k f, In (k, f) cf -> exists j m colors, In j (is ++ [i]) /\ k = (mp_pos m, colors, i_agg_name j) /\
    compute_fig A nan CS get_colorscale plotly_cmap str_num m colors (i_agg j) = Ok f).
  { intros k f K. destruct (En k f K) as [K'|[-> K']]; [exact (F' k f K')|]. exists i, m, (concat_cols A nan [df_y; df_X]).
    split; [apply in_or_app; cbn; auto|]. split; [reflexivity|exact K']. }
  destruct r; exact G.
Qed.
Lemma figs_after is : figs is (after_ is).
Proof.
  induction is as [|i is IH] using rev_ind; [intros k f []|]. rewrite after_snoc. apply figs_run, IH.
Qed.

(** ** C72: the figure: plotted with the columns of labels and data as colours, 600 by 600, with an
    aggregation of the selected name and a plot with the positions shown; then only margins, axis lines and
    the ratio of the axes are set. *)
Theorem C72_figure : forall is i p, snd (run i (after_ is)) = Ok (Page p) ->
  exists j m f0, In j (is ++ [i]) /\ i_agg_name j = i_agg_name i /\ mp_pos m = mp_pos (o_plot p) /\
    old_plotly m (o_X p) (o_y p) (i_agg j) (NSList (old_sizes A)) = Ok f0 /\
    let f := o_fig p in
    f_traces f = f_traces f0 /\ f_menus f = f_menus f0 /\ f_sliders f = f_sliders f0 /\
    attr (f_layout f) "yaxis.scaleanchor" = AStr "x" /\ attr (f_layout f) "yaxis.scaleratio" = AInt 1 /\
    attr (f_layout f) "xaxis.showline" = ABool false /\ attr (f_layout f) "yaxis.showline" = ABool false /\
    (forall side, In side ["margin.b"; "margin.l"; "margin.r"; "margin.t"] -> attr (f_layout f) side = AInt 5) /\
    (forall path, ~ In path ["margin.b"; "margin.l"; "margin.r"; "margin.t"; "xaxis.showline"; "yaxis.showline"; "yaxis.scaleanchor"; "yaxis.scaleratio"] ->
       attr (f_layout f) path = attr (f_layout f0) path).
Proof.
  intros is i p. pose proof (figs_after is) as F. set (c := after_ is) in *. unfold main_run.
  destruct (cached source_dec _ _ _ _) as [cd [[df_X df_y]|e]]; [|destruct e; discriminate].
  destruct (lens_values _ _ _ _ _ _) as [y|e]; [|discriminate].
  destruct (cached (mapper_key_dec A num_dec) _ _ _ _) as [cg [g|e]]; [|discriminate].
  destruct (cached plot_key_dec _ _ _ _) as [cp [m|e]]; [|discriminate]. cbv zeta.
  set (colors := concat_cols A nan [df_y; df_X]).
  pose proof (cached_ok (fig_key_dec A num_dec) None (mp_pos m, colors, i_agg_name i)
    (compute_fig A nan CS get_colorscale plotly_cmap str_num m colors (i_agg i)) (c_fig c)) as En.
  destruct (cached (fig_key_dec A num_dec) _ _ _ _) as [cf [f0|e]]; [|discriminate]. cbn [snd] in En |- *. specialize (En f0 eq_refl).
  intro H. assert (H' : p = mkpage df_X df_y g m (update_layout (old_layout A CS) f0) (stack A nan df_X df_y)) by (inversion H; reflexivity).
  clear H. subst p. cbn [o_X o_y o_fig o_plot].
  assert (Q : exists j m', In j (is ++ [i]) /\ i_agg_name j = i_agg_name i /\ mp_pos m' = mp_pos m /\
    compute_fig A nan CS get_colorscale plotly_cmap str_num m' colors (i_agg j) = Ok f0).
  { destruct En as [K|K].
    - destruct (F _ _ K) as [j [m' [colors' [J [E Q]]]]].
      assert (E1 := f_equal (fun k => fst (fst k)) E). assert (E2 := f_equal (fun k => snd (fst k)) E). assert (E3 := f_equal snd E).
      cbn [fst snd] in E1, E2, E3. subst colors'. exists j, m'. split; [apply in_or_app; auto|]. auto.
    - exists i, m. split; [apply in_or_app; cbn; auto|]. auto. }
  destruct Q as [j [m' [J [Nj [Pm Q]]]]]. exists j, m', f0. split; [exact J|]. split; [exact Nj|]. split; [exact Pm|]. split; [exact Q|].
  cbn [update_layout f_layout f_traces f_menus f_sliders]. do 3 (split; [reflexivity|]).
  assert (N : NoDup (map fst (old_layout A CS))).
  { cbn. repeat (constructor; [cbn; intuition discriminate|]). constructor. }
  assert (S : forall path v, In (path, v) (old_layout A CS) -> attr (apply_patch (old_layout A CS) (f_layout f0)) path = v)
    by (intros path v; apply attr_apply_same; exact N).
  do 4 (split; [apply S; cbn; auto 12|]). split.
  - intros side K. apply S. cbn in K |- *. intuition (subst; auto 12).
  - intros path K. apply attr_apply_other. exact K.
Qed.
End OldMore.
Print Assumptions C72_data.
Print Assumptions C72_lens.
Print Assumptions C72_figure.

(** ** C72: the node sizes of its slider: 0, 1/4, ... 2; choosing one gives the traces of plotting with it. *)
Theorem C72_sizes :
  forall nan CS get_colorscale plotly_cmap str_num m colors agg (f : figure RA CS),
  compute_fig RA nan CS get_colorscale plotly_cmap str_num m colors agg = Ok f ->
  exists sl, find_slider "slider_node_size" (f_sliders f) = Some sl /\ length (s_steps sl) = 9 /\
    forall i b, nth_error (s_steps sl) i = Some b ->
      b_label b = str_num (INR i / 4)%R /\
      exists f', plot_plotly RA CS get_colorscale plotly_cmap str_num m
          (CA2 (mkcolors (to_numpy RA nan colors) (length (fr_cols colors)))) (NSNum (A := RA) (INR i / 4)%R) (TList (map fst (fr_cols colors)))
          agg (CMList ["Jet"; "Viridis"; "Cividis"]) (Some 600%Z) (Some 600%Z) = Ok f' /\
        same_traces (f_traces (restyle b f)) (f_traces f').
Proof.
  intros nan CS gc pc sn m colors agg f H.
  destruct (C48_size_slider RA CS gc pc sn m _ _ _ _ _ _ _ f (old_sizes RA) H eq_refl) as [sl [F [L [K _]]]].
  exists sl. split; [exact F|]. split; [rewrite L; reflexivity|].
  intros i b Eb. destruct (K i b Eb) as [s [f' [Es [El [_ [Ef T]]]]]].
  assert (Q : s = (INR i / 4)%R).
  { unfold old_sizes in Es. rewrite nth_error_map in Es. destruct (nth_error (seq 0 9) i) as [j|] eqn:Ej; [|discriminate].
    assert (Lj : i < 9) by (rewrite <- (seq_length 9 0); apply nth_error_Some; congruence).
    apply (nth_error_nth _ _ 0) in Ej. rewrite seq_nth in Ej by exact Lj. cbn [option_map] in Es. injection Es as <-. subst j.
    rewrite INR_IZR_INZ. cbn [RA mul div ofz Nat.add]. lra. }
  subst s. split; [exact El|]. exists f'. split; [exact Ef|]. exact T.
Qed.
Print Assumptions C72_sizes.

(** The page of the first example: its layout and slider. *)
Definition page_layout (r : res (screen QA string)) : list bool * nat :=
  match r with
  | Ok (Page p) =>
      (map (fun x => match attr (f_layout (o_fig p)) (fst x), snd x with
                     | AStr s, AStr s' => String.eqb s s' | AInt a, AInt b => Z.eqb a b | ABool a, ABool b => Bool.eqb a b | _, _ => false end)
         [("yaxis.scaleanchor", AStr (A := QA) (CS := string) "x"); ("margin.l", AInt 5); ("xaxis.showline", ABool false); ("height", AInt 600)],
       match find_slider "slider_node_size" (f_sliders (o_fig p)) with Some sl => length (s_steps sl) | None => 0 end)
  | _ => ([], 0)
  end.
Example C72_figure_example : page_layout (snd (d_run (d_in "Iris" 2) new_caches)) = ([true; true; true; true], 9).
Proof. vm_eq. Qed.
Example C72_data_example : exists X y, held QA wide short (fun _ => Err ValueError) (fun _ => Err ValueError) (i_source (d_in "Iris" 2)) X y /\ fr_rows X = 2.
Proof. exists (fst short), (snd short). split; [apply held_iris|reflexivity]. Qed.
