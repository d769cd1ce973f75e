(** Properties of the web application (src/tdamapper/app.py), C44-C46 and C49-C51. *)
From Coq Require Import String Reals Lra Lia QArith SpecFloat.
From Verif Require Import Base BaseFacts Dict ModelArith ModelMetrics ModelCore SpecCore ModelDraw ModelPlotly SpecPlot.
From Verif Require Import ModelApp SpecApp AppProp AppRun AppPage PropPlot.
Open Scope nat_scope.

(** Computing without reading the result back. *)
Ltac vm_eq := match goal with |- _ = ?r => vm_cast_no_check (eq_refl r) end.

(** ** C44: on finite data, [fix_data] keeps the numeric columns with a known entry and
    fills their gaps with the average. *)
Theorem C44_fix_data :
  forall d : frame XA, NoDup (map fst (fr_cols d)) ->
  (forall name l, In (name, CNum (A := XA) l) (fr_cols d) -> finite l) ->
  fr_rows (fix_data XA xnan XNan d) = fr_rows d /\ fixed (fr_cols d) (fr_cols (fix_data XA xnan XNan d)).
Proof. exact fix_data_fixed. Qed.
Print Assumptions C44_fix_data.

(** ** C44: filling makes every entry known and keeps the average. *)
Theorem C44_filled :
  forall l l', finite l -> known l <> [] -> filled l l' ->
  length l' = length l /\ finite l' /\ ~ In XNan l' /\ average (known l') = average (known l).
Proof.
  intros l l' F N H. apply (filled_unique l l' F) in H. subst l'. split; [apply map_length|].
  destruct (xfill_finite (average (known l)) l F) as [K1 K2]. split; [exact K1|]. split; [exact K2|]. apply average_kept; assumption.
Qed.
Print Assumptions C44_filled.

(** ** C44: no missing entry is left, and fixing again changes nothing. *)
Theorem C44_complete :
  forall d : frame XA, NoDup (map fst (fr_cols d)) ->
  (forall name l, In (name, CNum (A := XA) l) (fr_cols d) -> finite l) ->
  (forall name c, In (name, c) (fr_cols (fix_data XA xnan XNan d)) -> exists l, c = CNum (A := XA) l /\ finite l /\ l <> [] /\ ~ In XNan l) /\
  fix_data XA xnan XNan (fix_data XA xnan XNan d) = fix_data XA xnan XNan d.
Proof.
  intros d N F. assert (Q : forall name c, In (name, c) (fr_cols (fix_data XA xnan XNan d)) -> exists l, c = CNum (A := XA) l /\ finite l /\ l <> [] /\ ~ In XNan l).
  { destruct (fix_data_fixed d N F) as [_ H]. revert H F. generalize (fr_cols (fix_data XA xnan XNan d)) as cs'. generalize (fr_cols d) as cs. clear.
    intros cs cs' H. induction H as [|n cs cs' H IH|n l cs cs' K H IH|n l l' cs cs' K1 K2 H IH]; intros F name c I; [destruct I| | |].
    - apply (IH (fun n0 l0 J => F n0 l0 (or_intror J)) name c I).
    - apply (IH (fun n0 l0 J => F n0 l0 (or_intror J)) name c I).
    - destruct I as [E|I]; [|apply (IH (fun n0 l0 J => F n0 l0 (or_intror J)) name c I)]. injection E as <- <-. exists l'. split; [reflexivity|].
      destruct (C44_filled l l' (F n l (or_introl eq_refl)) K1 K2) as [L [P1 [P2 _]]]. split; [exact P1|]. split; [|exact P2].
      intros ->. apply K1. destruct l; [reflexivity|discriminate]. }
  split; [exact Q|]. set (d' := fix_data XA xnan XNan d) in *.
  assert (Nd' : NoDup (map fst (fr_cols d'))).
  { unfold d'. rewrite (fix_data_closed XA xnan XNan d N). cbn [fr_cols]. rewrite map_map. cbn [fst]. unfold kept. apply (filter_keys XA xnan XNan), (filter_keys XA xnan XNan). exact N. }
  rewrite (fix_data_closed XA xnan XNan d' Nd'). destruct d' as [n cs]. cbn [fr_rows fr_cols] in *. f_equal. unfold kept. cbn [fr_cols].
  clear Nd'. induction cs as [|[name c] cs IH]; [reflexivity|]. destruct (Q name c (or_introl eq_refl)) as [l [-> [Fl [Nl Kl]]]].
  cbn [filter snd is_numeric has_value]. assert (E : existsb (fun x : num XA => negb (xnan x)) l = true).
  { destruct l as [|x l]; [contradiction|]. cbn [existsb]. destruct x; try reflexivity. exfalso. apply Kl. left. reflexivity. }
  rewrite E. cbn [map fst snd]. f_equal.
  - f_equal. cbn [fill]. f_equal. rewrite <- (map_id l) at 2. apply map_ext_in. intros x I. destruct x; try reflexivity. exfalso. apply Kl. exact I.
  - apply IH. intros name' c' I. apply (Q name' c'). right. exact I.
Qed.
Print Assumptions C44_complete.

(** ** C44: in any arithmetic, [fix_data] keeps the columns that are numeric and have an
    entry that is not missing, in order, and changes missing entries only. *)
Theorem C44_kept_columns :
  forall (A : arith) missing nan (d : frame A), NoDup (map fst (fr_cols d)) ->
  fr_rows (fix_data A missing nan d) = fr_rows d /\
  Forall2 (fun c c' => fst c' = fst c /\ exists l l' v, snd c = CNum l /\ snd c' = CNum l' /\
             Forall2 (fun x x' => if missing x then x' = v else x' = x) l l')
    (filter (fun c => match snd c with CNum l => existsb (fun x => negb (missing x)) l | COther => false end) (fr_cols d))
    (fr_cols (fix_data A missing nan d)).
Proof.
  intros A missing nan d N. rewrite (fix_data_closed A missing nan d N). cbn [fr_rows fr_cols]. split; [reflexivity|]. unfold kept.
  clear N. generalize (fr_cols d) as cs. induction cs as [|[name [l|]] cs IH]; cbn [filter snd is_numeric has_value map]; [constructor| |exact IH].
  destruct (existsb (fun x : num A => negb (missing x)) l); [|exact IH]. cbn [map fst snd]. constructor; [|exact IH]. cbn [fst snd fill].
  split; [reflexivity|]. eexists l, _, (col_mean A missing nan (CNum l)). split; [reflexivity|]. split; [reflexivity|].
  generalize (col_mean A missing nan (CNum l)) as v. intro v. clear IH. induction l as [|x l IH]; cbn [map]; constructor; [|exact IH].
  destruct (missing x); reflexivity.
Qed.
Print Assumptions C44_kept_columns.

(** *** In double precision: a column with a gap, an empty one and a text one. *)
Definition f_nan (x : num FA) : bool := match x with S754_nan => true | _ => false end.
Definition fz (z : Z) : num FA := ofz FA z.
Definition fix_demo : frame FA :=
  mkframe 3 [("a", CNum (A := FA) [fz 1; S754_nan; fz 4]); ("b", CNum (A := FA) [S754_nan; S754_nan; S754_nan]); ("c", COther);
             ("d", CNum (A := FA) [fz 7; fz 8; fz 9])]%string.
Example C44_fix_example :
  fix_data FA f_nan S754_nan fix_demo =
  mkframe 3 [("a", CNum (A := FA) [fz 1; div FA (fz 5) (fz 2); fz 4]); ("d", CNum (A := FA) [fz 7; fz 8; fz 9])]%string.
Proof. vm_eq. Qed.
Example C44_fix_data_example :
  let d : frame XA := mkframe 3 [("a", CNum (A := XA) [XFin 1; XNan; XFin 4]); ("b", CNum (A := XA) [XNan; XNan; XNan]); ("c", COther)]%string in
  NoDup (map fst (fr_cols d)) /\ (forall name l, In (name, CNum (A := XA) l) (fr_cols d) -> finite l) /\
  filled [XFin 1; XNan; XFin 4] [XFin 1; XFin (5 / 2); XFin 4].
Proof.
  cbn. split; [|split].
  - repeat constructor; cbn; intuition discriminate.
  - intros name l [E|[E|[E|[]]]]; try discriminate; injection E as <- <-; intros x; cbn; intuition (subst; eauto).
  - unfold filled, average, known. cbn.
    constructor; [left; split; [discriminate|reflexivity]|]. constructor; [right; split; [reflexivity|f_equal; lra]|].
    constructor; [left; split; [discriminate|reflexivity]|constructor].
Qed.

(** ** C44 fails with infinities: with both in a column its mean is not a number, and the
    gap stays. *)
Theorem C44_infinities_refuted :
  exists d : frame FA, NoDup (map fst (fr_cols d)) /\ fr_cols (fix_data FA f_nan S754_nan d) = fr_cols d /\
    exists name l, In (name, CNum (A := FA) l) (fr_cols d) /\ In S754_nan l.
Proof.
  exists (mkframe 3 [("a"%string, CNum (A := FA) [S754_infinity false; S754_infinity true; S754_nan])]).
  split; [repeat constructor; cbn; intuition|]. split; [vm_eq|]. eexists _, _. split; [left; reflexivity|cbn; auto].
Qed.
Print Assumptions C44_infinities_refuted.

(** ** C45: the configuration holds what the controls show exactly if they are usable:
    scaling switches off, no number zero or cleared, no choice cleared, whole numbers where
    meant, 2 or 3 dimensions. *)
Theorem C45_settings :
  forall c : controls XA,
  (usable c -> exists g, get_mapper_config XA xtrunc c = Ok g) /\
  forall g, get_mapper_config XA xtrunc c = Ok g -> (agrees c g <-> usable c).
Proof. intro c. split; [apply usable_config|apply config_agrees]. Qed.
Print Assumptions C45_settings.

(** ** C45: the scaling switches have no effect, in any arithmetic. *)
Theorem C45_scaling_ignored :
  forall (A : arith) trunc (c : controls A) g, get_mapper_config A trunc c = Ok g ->
  cover_scale_data g = false /\ clustering_scale_data g = false.
Proof.
  intros A trunc c g H. unfold get_mapper_config in H. cbv zeta in H.
  repeat (apply bind_ok in H; destruct H as [? [_ H]]). injection H as <-. auto.
Qed.
Print Assumptions C45_scaling_ignored.

(** ** C45: a cleared choice of dimensions raises, in any arithmetic. *)
Theorem C45_cleared_dimensions :
  forall (A : arith) trunc (c : controls A), v_dimensions c = None -> get_mapper_config A trunc c = Err TypeError.
Proof. intros A trunc c H. unfold get_mapper_config. rewrite H. reflexivity. Qed.
Print Assumptions C45_cleared_dimensions.

Definition page_controls (scale : bool) (seed overlap intervals : xr) : controls XA :=
  mkcontrols (A := XA) None (Some "PCA"%string) scale (Some "Cubical Cover"%string) false (Some "Skip"%string)
    (Some (XFin 2)) (Some (XFin 2)) (Some intervals) (Some overlap) (Some (XFin 100)) (Some (XFin 10)) (Some (XFin 2)) (Some (XFin (1 / 2)))
    (Some (XFin 5)) (Some (XFin 2)) (Some 2%Z) (Some (XFin 100)) (Some seed).
Example C45_settings_example : usable (page_controls false (XFin 42) (XFin (1 / 4)) (XFin 10)).
Proof.
  unfold usable, page_controls. cbn. split; [reflexivity|]. split; [reflexivity|].
  split; [|split; [|split; [|auto]]]; intros v I; repeat (destruct I as [<-|I]); try destruct I.
  - exists 2%Z. auto with zarith. - exists 2%Z. auto with zarith. - exists 10%Z. auto with zarith. - exists 10%Z. auto with zarith.
  - exists 2%Z. auto with zarith. - exists 5%Z. auto with zarith. - exists 2%Z. auto with zarith. - exists 100%Z. auto with zarith.
  - exists 42%Z. auto with zarith.
  - eexists. split; [|reflexivity]. intro K. injection K as K. lra.
  - eexists. split; [|reflexivity]. intro K. injection K as K. lra.
  - eexists. split; [|reflexivity]. intro K. injection K as K. lra.
  - eexists. split; [|reflexivity]. discriminate.
  - eexists. split; [|reflexivity]. discriminate.
  - eexists. split; [|reflexivity]. discriminate.
Qed.

Lemma page_config scale seed overlap n : exists g, get_mapper_config XA xtrunc (page_controls scale (XFin (IZR seed)) overlap (XFin (IZR n))) = Ok g /\
  plot_seed g = (if Z.eqb seed 0 then 42 else seed)%Z /\ cover_cubical_overlap_frac g = num_or XA (Some overlap) (quarter XA).
Proof.
  unfold get_mapper_config, page_controls. cbn [v_dimensions bind v_pca_n_components v_umap_n_components v_n_intervals v_knn_neighbors v_kmeans_n_clusters
    v_dbscan_min_samples v_agglomerative_n_clusters v_iterations v_seed].
  assert (Z0 : forall z d, exists z', int_or XA xtrunc (Some (XFin (IZR z))) d = Ok z' /\ z' = (if Z.eqb z 0 then d else z)%Z).
  { intros z d. destruct (Z.eqb_spec z 0) as [->|Hz].
    - cbn [int_or]. rewrite (proj2 (xzero_b (XFin 0)) eq_refl). eauto.
    - exists z. split; [apply int_shown_ok; exact Hz|reflexivity]. }
  destruct (Z0 2%Z 2%Z) as [z1 [-> _]]. destruct (Z0 n 10%Z) as [z2 [-> _]]. destruct (Z0 10%Z 10%Z) as [z3 [-> _]].
  destruct (Z0 5%Z 5%Z) as [z4 [-> _]]. destruct (Z0 100%Z 100%Z) as [z5 [-> _]]. destruct (Z0 seed 42%Z) as [z6 [-> E]]. cbn [bind].
  eexists. split; [reflexivity|]. cbn. auto.
Qed.
(** ** C45 fails: with the seed set to 0 the layout uses 42; with no overlap the run uses
    a quarter; with the scaling switch on nothing is scaled. *)
Theorem C45_settings_refuted :
  (exists (c : controls XA) g, v_seed c = Some (XFin 0) /\ get_mapper_config XA xtrunc c = Ok g /\ plot_seed g = 42%Z /\ ~ agrees c g) /\
  (exists (c : controls XA) g, v_overlap_frac c = Some (XFin 0) /\ get_mapper_config XA xtrunc c = Ok g /\
     cover_cubical_overlap_frac g = quarter XA /\ ~ agrees c g) /\
  (exists (c : controls XA) g, v_cover_scale c = true /\ get_mapper_config XA xtrunc c = Ok g /\ cover_scale_data g = false /\ ~ agrees c g).
Proof.
  split; [|split].
  - destruct (page_config false 0 (XFin 1) 10) as [g [E [S _]]]. exists (page_controls false (XFin 0) (XFin 1) (XFin 10)), g. split; [reflexivity|]. split; [exact E|]. split; [exact S|].
    intro K. destruct (proj1 (config_agrees _ g E) K) as [_ [_ [U _]]]. destruct (U (Some (XFin 0))) as [z [N Q]]; [cbn; auto 12|].
    injection Q as Q. apply eq_IZR in Q. congruence.
  - destruct (page_config false 1 (XFin 0) 10) as [g [E [_ S]]]. exists (page_controls false (XFin 1) (XFin 0) (XFin 10)), g. split; [reflexivity|]. split; [exact E|]. split.
    + rewrite S. cbn [num_or]. rewrite (proj2 (xzero_b (XFin 0)) eq_refl). reflexivity.
    + intro K. destruct (proj1 (config_agrees _ g E) K) as [_ [_ [_ [U _]]]]. destruct (U (Some (XFin 0))) as [x [N Q]]; [cbn; auto|]. congruence.
  - destruct (page_config true 1 (XFin 1) 10) as [g [E [S _]]]. exists (page_controls true (XFin 1) (XFin 1) (XFin 10)), g. split; [reflexivity|]. split; [exact E|].
    split; [exact (proj1 (C45_scaling_ignored _ _ _ _ E))|]. intro K. destruct (proj1 (config_agrees _ g E) K) as [U _]. discriminate.
Qed.
Print Assumptions C45_settings_refuted.

Section Events.
Variable A : arith.
Variable missing : num A -> bool.
Variable nan : num A.
Variable trunc : num A -> res Z.
Variables pca umap : Z -> matrix A -> res (matrix A).
Variable scaler : matrix A -> res (matrix A).
Variable mapper_fit : cover_spec A -> clust_spec A -> matrix A -> matrix A -> res graph.
Variable CS : Type.
Variable get_colorscale : string -> res CS.
Variable plotly_cmap : string -> option string.
Variable str_num : num A -> string.
Variable layout_of : Z -> Z -> nat -> graph -> list (list (num A)).
Variables digits iris : frame A * frame A.
Notation fixd := (fix_data A missing nan).
Notation run := (run_mapper A nan pca umap scaler mapper_fit).
Notation draw := (create_mapper_figure A missing nan CS get_colorscale plotly_cmap str_num layout_of).
Notation stps := (steps A missing nan trunc pca umap scaler mapper_fit CS get_colorscale plotly_cmap str_num layout_of digits iris).

(** ** C46: whatever happens, the graph and the lens values of anything drawn come from one
    run, and it and the data drawn were loaded at some time. *)
Theorem C46_one_run :
  forall es d, let p := stps es new_page in
  In d (p_drawings p) \/ p_shown p = Some d ->
  was_loaded fixd digits iris es (d_X d) /\ one_run fixd digits iris run es (d_graph d) (d_y d).
Proof.
  intros es d p. exact (proj2 (proj2 (proj2 (proj2 (sound_steps A missing nan trunc pca umap scaler mapper_fit CS get_colorscale plotly_cmap str_num
    layout_of digits iris es)))) d).
Qed.

(** ** C46: data loaded while nothing is being computed. As long as no other data is loaded
    and nothing is redrawn before a run ends well, what is being drawn is the loaded data
    with a graph of it, and what is shown is that or what was shown before. *)
Theorem C46_current_data :
  forall p e d es1 es2 k c df cfg g y,
  p_runs p = [] -> p_drawings p = [] -> brings digits iris e = Some d ->
  (forall e', In e' es1 -> ~ loads e' /\ ~ redraws e') -> (forall e', In e' es2 -> ~ loads e') ->
  nth_error (p_runs (stps (e :: es1) p)) k = Some (df, cfg) -> run df cfg = Ok (Some (g, y)) ->
  let p' := stps (e :: es1 ++ RunDone k c :: es2) p in
  (forall d', In d' (p_drawings p') -> current run (fixd (fst d)) (fixd (snd d)) d') /\
  (p_shown p' = p_shown p \/ exists d', p_shown p' = Some d' /\ current run (fixd (fst d)) (fixd (snd d)) d').
Proof.
  intros p e d es1 es2 k c df cfg g y E1 E2 B H1 H2 Ek Er p'.
  pose proof (fresh_load A missing nan trunc pca umap scaler mapper_fit CS get_colorscale plotly_cmap str_num layout_of digits iris e d p B E1 E2) as F0.
  pose proof (fresh_steps A missing nan trunc pca umap scaler mapper_fit CS get_colorscale plotly_cmap str_num layout_of digits iris
    _ _ _ false es1 (fun e' I => conj (proj1 (H1 e' I)) (fun _ => proj2 (H1 e' I))) _ F0) as F1.
  assert (Edf : df = fixd (fst d)).
  { destruct F1 as [_ [_ [F _]]]. apply (F df cfg). apply nth_error_In in Ek. exact Ek. }
  subst df. pose proof (fresh_done A missing nan trunc pca umap scaler mapper_fit CS get_colorscale plotly_cmap str_num layout_of digits iris
    _ _ _ k c cfg g y _ F1 Ek Er) as F2.
  pose proof (fresh_steps A missing nan trunc pca umap scaler mapper_fit CS get_colorscale plotly_cmap str_num layout_of digits iris
    _ _ _ true es2 (fun e' I => conj (H2 e' I) (fun (K : true = false) => False_ind _ (Bool.diff_true_false K))) _ F2) as F3.
  assert (Ep : p' = stps es2 (step A missing nan trunc pca umap scaler mapper_fit CS get_colorscale plotly_cmap str_num layout_of digits iris (RunDone k c)
    (stps es1 (step A missing nan trunc pca umap scaler mapper_fit CS get_colorscale plotly_cmap str_num layout_of digits iris e p)))).
  { unfold p'. change (e :: es1 ++ RunDone k c :: es2) with ((e :: es1) ++ RunDone k c :: es2). unfold steps. rewrite fold_left_app. reflexivity. }
  rewrite Ep. destruct F3 as [_ [_ [_ [K1 [K2 _]]]]]. split; assumption.
Qed.

(** ** C51: the stored data is that of the last upload or load of an example, prepared. *)
Theorem C51_latest_data :
  forall es, exists o, latest digits iris es o /\
  p_df (stps es new_page) = option_map (fun d => fixd (fst d)) o /\ p_labels (stps es new_page) = option_map (fun d => fixd (snd d)) o.
Proof.
  intro es. destruct (latest_ex A digits iris es) as [o L]. exists o. split; [exact L|].
  exact (latest_data A missing nan trunc pca umap scaler mapper_fit CS get_colorscale plotly_cmap str_num layout_of digits iris es o L).
Qed.
Theorem C51_latest_unique : forall es o o', latest digits iris es o -> latest digits iris es o' -> o = o'.
Proof.
  intros es o o' H. revert o'. induction H as [|es e d B|es e o B H IH]; intros o' H'.
  - inversion H' as [|es' e' d' B' E|es' e' o'' B' K E]; [reflexivity| |]; destruct es'; discriminate.
  - inversion H' as [E|es' e' d' B' E|es' e' o'' B' K E]; [destruct es; discriminate| |]; apply app_inj_tail in E; destruct E as [-> ->]; congruence.
  - inversion H' as [E|es' e' d' B' E|es' e' o'' B' K E]; [destruct es; discriminate| |]; apply app_inj_tail in E; destruct E as [-> ->]; [congruence|auto].
Qed.
(** ** C51: "Load Data" with the CSV source changes nothing. *)
Theorem C51_csv_changes_nothing : forall p, stps [Load SCsv] p = p.
Proof. reflexivity. Qed.

(** ** C49: a run gives nothing exactly for empty data or an unknown cover or clustering. *)
Theorem C49_nothing :
  forall df cfg, run df cfg = Ok None <-> is_empty df = true \/ ~ In (cover_type cfg) covers \/ ~ In (clustering_type cfg) clusterings.
Proof. exact (run_none A nan pca umap scaler mapper_fit). Qed.

(** ** C49: a run applies the selected lens to the columns not excluded, scales as asked,
    and runs Mapper with the selected cover and clustering; the lens frame holds the lens
    values before scaling. *)
Theorem C49_pipeline :
  forall df cfg g df_y, full_frame df -> (forall n, row_wise (pca n)) -> (forall n, row_wise (umap n)) ->
  run df cfg = Ok (Some (g, df_y)) ->
  exists cover clustering X y y' X',
    selected cfg cover clustering /\
    rows_of (filter (fun c => negb (existsb (String.eqb (fst c)) (excluded_columns cfg))) (fr_cols df)) (fr_rows df) X /\
    lens_applied pca umap cfg X y /\ scaled scaler (cover_scale_data cfg) y y' /\ scaled scaler (clustering_scale_data cfg) X X' /\
    mapper_fit cover clustering X' y' = Ok g /\
    fr_rows df_y = fr_rows df /\ rows_of (fr_cols df_y) (fr_rows df) y /\
    forall i c, nth_error (fr_cols df_y) i = Some c -> fst c = (lens_type cfg ++ " " ++ ModelApp.str_nat i)%string.
Proof.
  intros df cfg g df_y F Wp Wu H. apply run_some in H. destruct H as [cover [clustering [y [y' [X' [Sl [_ [L [-> [Sy [SX Eg]]]]]]]]]]].
  exists cover, clustering, (to_numpy A nan (drop A (excluded_columns cfg) df)), y, y', X'. split; [exact Sl|].
  pose proof (numpy_rows A missing nan _ (full_drop A missing nan (excluded_columns cfg) df F)) as R. cbn [drop fr_cols fr_rows] in R.
  split; [exact R|]. split; [exact L|]. split; [exact Sy|]. split; [exact SX|]. split; [exact Eg|].
  pose proof (rows_of_rect A _ _ _ R) as Rc.
  assert (Q : length y = fr_rows df /\ rectangular (A := A) y).
  { rewrite <- (proj1 R). destruct L as [[_ ->]|[[_ L]|[[_ L]|[_ L]]]].
    - split; [reflexivity|exact Rc].
    - destruct (Wp _ _ _ L) as [Q1 Q2]. split; [exact Q1|apply Q2; exact Rc].
    - destruct (Wu _ _ _ L) as [Q1 Q2]. split; [exact Q1|apply Q2; exact Rc].
    - destruct (Wp _ _ _ L) as [Q1 Q2]. split; [exact Q1|apply Q2; exact Rc]. }
  destruct Q as [Q1 Q2]. split; [exact Q1|]. split; [rewrite <- Q1; apply (lens_frame_rows A missing nan pca umap scaler); exact Q2|].
  intros i c. apply (lens_frame_names A nan).
Qed.

(** ** C49: parameters of what is not selected, and excluded columns, have no effect. *)
Theorem C49_selection_only :
  forall df df' cfg cfg', same_selection cfg cfg' -> is_empty df = is_empty df' -> fr_rows df = fr_rows df' ->
  filter (fun c => negb (existsb (String.eqb (fst c)) (excluded_columns cfg))) (fr_cols df) =
  filter (fun c => negb (existsb (String.eqb (fst c)) (excluded_columns cfg))) (fr_cols df') ->
  run df cfg = run df' cfg'.
Proof.
  intros df df' cfg cfg' S E1 E2 E3. rewrite <- (run_same A nan pca umap scaler mapper_fit cfg cfg' df' S).
  apply run_excluded; [exact E1|]. unfold drop. rewrite E2, E3. reflexivity.
Qed.

Notation cmaps := ["Viridis"; "Cividis"; "Jet"; "Plasma"; "RdBu"]%string.
(** What is assumed of the third parties: lenses and scaling keep the rows, Mapper gives a
    Mapper graph (C39), the layout has a row for each node, the colour maps are known. *)
Definition third_parties : Prop :=
  (forall n, row_wise (pca n)) /\ (forall n, row_wise (umap n)) /\ row_wise scaler /\
  (forall cover clustering X y g, mapper_fit cover clustering X y = Ok g -> exists opens clust, mapper_graph X opens clust = Ok g) /\
  (forall iterations seed dim g, length (g_nodes g) <= length (layout_of iterations seed dim g) /\
     forall row, In row (layout_of iterations seed dim g) -> dim <= length row) /\
  (forall name, In name cmaps -> exists cs, get_colorscale name = Ok cs) /\
  (forall name name', In name cmaps -> plotly_cmap name = Some name' -> exists cs, get_colorscale name' = Ok cs).
Definition fitting_labels (labels df : frame A) : Prop :=
  full_frame labels /\ (fr_rows labels = fr_rows df \/ fr_cols labels = [] /\ fr_rows labels <= fr_rows df).

(** ** C50: the graph of a run can be drawn with its data. *)
Theorem C50_drawn :
  third_parties -> forall df labels cfg cfg' g y, full_frame df -> fitting_labels labels df ->
  run df cfg = Ok (Some (g, y)) -> plot_dimensions cfg' = 2 \/ plot_dimensions cfg' = 3 ->
  exists f, draw df y labels g cfg' = Ok f.
Proof.
  intros [Wp [Wu [Ws [Mg [Lo [Sc Ms]]]]]] df labels cfg cfg' g y F [Fl Rl] Er D.
  assert (Ne : is_empty df = false) by (apply run_some in Er; destruct Er as [? [? [? [? [? [_ [Ne _]]]]]]]; exact Ne).
  destruct (run_shape A nan pca umap scaler mapper_fit df cfg g y Wp Wu Ws F Er) as [Fy [Ry [cv [cl [X [y' [LX Eg]]]]]]].
  destruct (Mg _ _ _ _ _ Eg) as [opens [clust Hg]].
  destruct (figure_total A missing nan pca umap CS get_colorscale plotly_cmap str_num layout_of Sc Ms Lo labels y df g cfg' _ X opens clust) as [f [_ [Q _]]]; auto.
  exists f. exact Q.
Qed.

(** ** C50: the colour menu of that figure has an entry for each column of the labels, the
    lens and the data, in this order and named after it; choosing it colours each node with
    the mean of the column over the points of the node. *)
Theorem C50_color_menu :
  third_parties -> forall df labels cfg cfg' g y f, full_frame df -> fitting_labels labels df ->
  run df cfg = Ok (Some (g, y)) -> plot_dimensions cfg' = 2 \/ plot_dimensions cfg' = 3 ->
  draw df y labels g cfg' = Ok f -> let cols := fr_cols labels ++ fr_cols y ++ fr_cols df in 1 < length cols ->
  exists mo, find_menu "menu_color" (f_menus f) = Some mo /\ length (m_buttons mo) = length cols /\
    forall i name l, nth_error cols i = Some (name, CNum l) ->
      exists b nt, nth_error (m_buttons mo) i = Some b /\ b_label b = name /\
        nth_error (f_traces (restyle b f)) 1 = Some nt /\
        forall k n s ids, nth_error (g_nodes g) k = Some (n, (s, ids)) ->
          exists xs, Forall2 (fun j x => nth_error l j = Some x) ids xs /\ shown nt "marker.color" k = Some (mean_of A missing nan xs).
Proof.
  intros [Wp [Wu [Ws [Mg [Lo [Sc Ms]]]]]] df labels cfg cfg' g y f F [Fl Rl] Er D Ef cols C1.
  assert (Ne : is_empty df = false) by (apply run_some in Er; destruct Er as [? [? [? [? [? [_ [Ne _]]]]]]]; exact Ne).
  destruct (run_shape A nan pca umap scaler mapper_fit df cfg g y Wp Wu Ws F Er) as [Fy [Ry [cv [cl [X [y' [LX Eg]]]]]]].
  destruct (Mg _ _ _ _ _ Eg) as [opens [clust Hg]].
  destruct (figure_menu A missing nan pca umap scaler CS get_colorscale plotly_cmap str_num layout_of Sc Ms Lo labels y df g cfg' _ X opens clust) as [f' [mo [Q Q']]]; auto.
  rewrite Ef in Q. injection Q as <-. exists mo. exact Q'.
Qed.

(** ** C50: on an idle page, loading data, running and waiting shows the data with its graph. *)
Theorem C50_page :
  third_parties -> forall p e d c cfg g y,
  p_runs p = [] -> p_drawings p = [] -> brings digits iris e = Some d ->
  NoDup (map fst (fr_cols (fst d))) -> (forall name l, In (name, CNum l) (fr_cols (fst d)) -> length l = fr_rows (fst d)) ->
  NoDup (map fst (fr_cols (snd d))) -> (forall name l, In (name, CNum l) (fr_cols (snd d)) -> length l = fr_rows (snd d)) ->
  fr_rows (snd d) = fr_rows (fst d) \/ snd d = no_frame ->
  get_mapper_config A trunc c = Ok cfg -> run (fixd (fst d)) cfg = Ok (Some (g, y)) ->
  let p' := stps [e; Run c; RunDone 0 c; DrawDone 0] p in
  p_shown p' = Some (mkdrawing (fixd (fst d)) y (fixd (snd d)) g cfg) /\ p_runs p' = [] /\ p_drawings p' = [].
Proof.
  intros T p e d c cfg g y E1 E2 B N1 L1 N2 L2 Rl Ec Er.
  assert (Ne : is_empty (fixd (fst d)) = false) by (apply run_some in Er; destruct Er as [? [? [? [? [? [_ [Ne _]]]]]]]; exact Ne).
  assert (D : plot_dimensions cfg = 2 \/ plot_dimensions cfg = 3).
  { unfold get_mapper_config in Ec. cbv zeta in Ec. repeat (apply bind_ok in Ec; destruct Ec as [? [_ Ec]]). injection Ec as <-. cbn.
    destruct (Z.eqb _ 2); [auto|]. destruct (Z.eqb _ 3); auto. }
  destruct (C50_drawn T (fixd (fst d)) (fixd (snd d)) cfg cfg g y) as [f Ef].
  - apply fix_data_full; assumption.
  - split; [apply fix_data_full; assumption|]. destruct Rl as [Rl| ->]; [left; exact Rl|right]. split; [reflexivity|cbn; lia].
  - exact Er.
  - exact D.
  - destruct (page_shows A missing nan trunc pca umap scaler mapper_fit CS get_colorscale plotly_cmap str_num layout_of digits iris e d c cfg g y f p
      B E1 E2 Ne Ec Er Ef) as [Q1 [Q2 [Q3 _]]]. auto.
Qed.
End Events.
Print Assumptions C46_one_run.
Print Assumptions C46_current_data.
Print Assumptions C49_nothing.
Print Assumptions C49_pipeline.
Print Assumptions C49_selection_only.
Print Assumptions C50_drawn.
Print Assumptions C50_color_menu.
Print Assumptions C50_page.
Print Assumptions C51_latest_data.
Print Assumptions C51_latest_unique.
Print Assumptions C51_csv_changes_nothing.

(** *** A page with small data, over the rationals *)
Definition q_col (name : string) (l : list Q) : string * column_data QA := (name, CNum (A := QA) l).
Definition demo_iris : frame QA * frame QA :=
  (mkframe 3 [q_col "width" [1; 2; 3]%Q; ("kind"%string, COther); q_col "length" [1; 4; 9]%Q], mkframe 3 [q_col "target" [0; 0; 1]%Q]).
Definition demo_digits : frame QA * frame QA :=
  (mkframe 4 [q_col "p0" [5; 6; 7; 8]%Q; q_col "p1" [1; 1; 2; 2]%Q], mkframe 4 [q_col "target" [3; 4; 5; 6]%Q]).
Definition demo_missing (q : num QA) : bool := false.
Definition demo_trunc (q : num QA) : res Z := Ok (Z.quot (Qnum q) (Zpos (Qden q))).
Definition demo_lens (n : Z) (X : matrix QA) : res (matrix QA) := Ok (map (firstn (Z.to_nat n)) X).
Definition demo_scaler (X : matrix QA) : res (matrix QA) := Ok X.
(** Two overlapping sets: the first two points, and all but the first. *)
Definition demo_fit (c : cover_spec QA) (l : clust_spec QA) (X y : matrix QA) : res graph :=
  mapper_graph X (mkgen [firstn 2 (seq 0 (length X)); skipn 1 (seq 0 (length X))] None) (fun _ xs => trivial_clustering xs).
Definition demo_layout (iterations seed : Z) (dim : nat) (g : graph) : list (list (num QA)) := map (fun _ => repeat (0%Q : num QA) dim) (g_nodes g).
Definition demo_run := run_mapper QA (0%Q : num QA) demo_lens demo_lens demo_scaler demo_fit.
Definition demo_steps := steps QA demo_missing (0%Q : num QA) demo_trunc demo_lens demo_lens demo_scaler demo_fit string (fun s => Ok s) (fun s => Some s)
  demo_str demo_layout demo_digits demo_iris.
Definition demo_controls : controls QA :=
  mkcontrols (A := QA) (Some ["width"%string]) (Some "PCA"%string) false (Some "KNN Cover"%string) false (Some "KMeans"%string)
    (Some 1%Q) (Some 2%Q) (Some 10%Q) (Some (1 # 4)%Q) (Some 100%Q) (Some 10%Q) (Some 2%Q) (Some (1 # 2)%Q) (Some 5%Q) (Some 2%Q) (Some 3%Z) (Some 100%Q) (Some 7%Q).

Lemma demo_third_parties : third_parties QA demo_lens demo_lens demo_scaler demo_fit string (fun s => Ok s) (fun s => Some s) demo_layout.
Proof.
  assert (W : forall n, row_wise (A := QA) (demo_lens n)).
  { intros n X y H. injection H as <-. split; [apply map_length|]. intros [w R]. exists (min (Z.to_nat n) w). intros row I. apply in_map_iff in I.
    destruct I as [r [<- I]]. exact (eq_trans (firstn_length _ _) (f_equal (Nat.min _) (R r I))). }
  split; [exact W|]. split; [exact W|]. split; [intros X y H; injection H as <-; auto|]. split; [|split; [|split]].
  - intros cv cl X y g H. eexists _, _. exact H.
  - intros it seed dim g. unfold demo_layout. rewrite map_length. split; [lia|]. intros row I. apply in_map_iff in I. destruct I as [? [<- _]].
    rewrite repeat_length. lia.
  - intros name _. eexists. reflexivity.
  - intros name name' _ _. eexists. reflexivity.
Qed.

Definition demo_fix : frame QA -> frame QA := fix_data QA demo_missing (0%Q : num QA).
Definition demo_cfg : config QA :=
  mkconfig QA ["width"%string] "PCA" false "KNN Cover" false "KMeans" 1 2 10 (1 # 4)%Q 100%Q 10 2 (1 # 2)%Q 5 2 3 100 7.
Definition demo_result (d : frame QA) : graph * frame QA :=
  match demo_run d demo_cfg with Ok (Some r) => r | _ => (mkgraph [] [], no_frame) end.
Lemma demo_config : get_mapper_config QA demo_trunc demo_controls = Ok demo_cfg.
Proof. vm_eq. Qed.
Lemma demo_iris_run : demo_run (demo_fix (fst demo_iris)) demo_cfg = Ok (Some (demo_result (demo_fix (fst demo_iris)))).
Proof. vm_eq. Qed.
Lemma demo_iris_full : full_frame (demo_fix (fst demo_iris)) /\ fitting_labels QA (demo_fix (snd demo_iris)) (demo_fix (fst demo_iris)).
Proof.
  split; [|split; [|left; reflexivity]]; apply fix_data_full; cbn; try (repeat constructor; cbn; intuition discriminate).
  - intros name l [E|[E|[E|[]]]]; try discriminate; injection E as <- <-; reflexivity.
  - intros name l [E|[]]; injection E as <- <-; reflexivity.
Qed.

(** The page of the example: [C50_page] with the iris data. *)
Definition demo_session (e : event QA) : page QA := demo_steps [e; Run demo_controls; RunDone 0 demo_controls; DrawDone 0] new_page.
Definition read_drawing (d : drawing QA) := (d_X d, d_y d, d_target d, map (fun x => (fst x, snd (snd x))) (g_nodes (d_graph d)),
  plot_dimensions (d_config d), plot_seed (d_config d)).
Example C50_page_example :
  option_map read_drawing (p_shown (demo_session (Load SIris))) =
  Some (mkframe 3 [q_col "width" [1; 2; 3]%Q; q_col "length" [1; 4; 9]%Q], mkframe 3 [q_col "PCA 0" [1; 4; 9]%Q],
        mkframe 3 [q_col "target" [0; 0; 1]%Q], [(0%Z, [0; 1]); (1%Z, [1; 2])], 3, 7%Z).
Proof. vm_eq. Qed.
Example C50_page_hypotheses_met :
  third_parties QA demo_lens demo_lens demo_scaler demo_fit string (fun s => Ok s) (fun s => Some s) demo_layout /\
  brings demo_digits demo_iris (Load SIris) = Some demo_iris /\
  NoDup (map fst (fr_cols (fst demo_iris))) /\ (forall name l, In (name, CNum l) (fr_cols (fst demo_iris)) -> length l = fr_rows (fst demo_iris)) /\
  fr_rows (snd demo_iris) = fr_rows (fst demo_iris) /\ get_mapper_config QA demo_trunc demo_controls = Ok demo_cfg /\
  demo_run (demo_fix (fst demo_iris)) demo_cfg = Ok (Some (demo_result (demo_fix (fst demo_iris)))).
Proof.
  split; [exact demo_third_parties|]. split; [reflexivity|]. split; [cbn; repeat constructor; cbn; intuition discriminate|].
  split; [intros name l [E|[E|[E|[]]]]; try discriminate; injection E as <- <-; reflexivity|].
  split; [reflexivity|]. split; [exact demo_config|exact demo_iris_run].
Qed.
Example C49_pipeline_example :
  demo_run (demo_fix (fst demo_iris)) demo_cfg = Ok (Some (demo_result (demo_fix (fst demo_iris)))) /\ full_frame (demo_fix (fst demo_iris)) /\
  selected demo_cfg (UseKNN 10) (UseKMeans 2) /\
  rows_of (filter (fun c => negb (existsb (String.eqb (fst c)) (excluded_columns demo_cfg))) (fr_cols (demo_fix (fst demo_iris)))) 3
    [[1%Q : num QA]; [4%Q : num QA]; [9%Q : num QA]].
Proof.
  split; [exact demo_iris_run|]. split; [exact (proj1 demo_iris_full)|]. split.
  - split; [right; right; split; reflexivity|right; left; split; reflexivity].
  - split; [reflexivity|]. intros [|[|[|i]]] row E; try (destruct i; discriminate); injection E as <-; cbn; repeat constructor; cbn; eexists; split; reflexivity.
Qed.
(** Another radius and another entry in the excluded column give the same run. *)
Example C49_selection_example :
  let cfg' := mkconfig QA ["width"%string] "PCA" false "KNN Cover" false "KMeans" 1 5 20 (1 # 3)%Q 1%Q 10 2 (1 # 9)%Q 9 9 2 1 1 in
  let df' : frame QA := mkframe 3 [q_col "width" [5; 5; 5]%Q; q_col "length" [1; 4; 9]%Q] in
  same_selection demo_cfg cfg' /\ is_empty df' = is_empty (demo_fix (fst demo_iris)) /\ fr_rows df' = fr_rows (demo_fix (fst demo_iris)) /\
  filter (fun c => negb (existsb (String.eqb (fst c)) (excluded_columns demo_cfg))) (fr_cols df') =
  filter (fun c => negb (existsb (String.eqb (fst c)) (excluded_columns demo_cfg))) (fr_cols (demo_fix (fst demo_iris))).
Proof. cbv zeta. split; [constructor; try reflexivity; discriminate|]. split; [reflexivity|]. split; reflexivity. Qed.
(** The menu of that figure: labels, lens, data; and the colours it gives. *)
Definition demo_app_figure := create_mapper_figure QA demo_missing (0%Q : num QA) string (fun s => Ok s) (fun s => Some s) demo_str demo_layout
  (demo_fix (fst demo_iris)) (snd (demo_result (demo_fix (fst demo_iris)))) (demo_fix (snd demo_iris)) (fst (demo_result (demo_fix (fst demo_iris)))) demo_cfg.
Definition demo_chosen (i : nat) : option (string * option Q * option Q) :=
  match demo_app_figure with
  | Ok f => match find_menu "menu_color" (f_menus f) with
            | Some mo => match nth_error (m_buttons mo) i with
                         | Some b => match nth_error (f_traces (restyle b f)) 1 with
                                     | Some nt => Some (b_label b, option_map Qred (shown nt "marker.color" 0), option_map Qred (shown nt "marker.color" 1))
                                     | None => None end
                         | None => None end
            | None => None end
  | Err _ => None
  end.
Example C50_color_menu_example :
  is_ok demo_app_figure = true /\
  map demo_chosen (seq 0 5) =
    [Some ("target", Some 0%Q, Some (1 # 2)%Q); Some ("PCA 0", Some (5 # 2)%Q, Some (13 # 2)%Q); Some ("width", Some (3 # 2)%Q, Some (5 # 2)%Q);
     Some ("length", Some (5 # 2)%Q, Some (13 # 2)%Q); None]%string.
Proof. split; [vm_eq|]. vm_eq. Qed.

Lemma demo_sizes cfg d g y : demo_run d cfg = Ok (Some (g, y)) -> fr_rows d = 4 -> map (fun x => snd (snd x)) (g_nodes g) = [[0; 1]; [1; 2; 3]].
Proof.
  intros H R. apply run_some in H. destruct H as [cv [cl [y0 [y' [X' [_ [_ [_ [_ [_ [SX Eg]]]]]]]]]]].
  assert (E : X' = to_numpy QA (0%Q : num QA) (drop QA (excluded_columns cfg) d)).
  { unfold scaled in SX. destruct (clustering_scale_data cfg); [injection SX as <-; reflexivity|exact SX]. }
  assert (L : length X' = 4) by (rewrite E, numpy_length; exact R). clear E SX.
  destruct X' as [|x0 [|x1 [|x2 [|x3 [|x4 X']]]]]; try discriminate. vm_compute in Eg. injection Eg as <-. reflexivity.
Qed.
(** The digits with the graph and lens of the iris data. *)
Definition demo_mixed : drawing QA :=
  mkdrawing (demo_fix (fst demo_digits)) (snd (demo_result (demo_fix (fst demo_iris)))) (demo_fix (snd demo_digits))
    (fst (demo_result (demo_fix (fst demo_iris)))) demo_cfg.
Lemma demo_mixed_apart : ~ goes_together demo_run demo_mixed.
Proof.
  intros [cfg H]. cbn [demo_mixed d_X d_graph d_y] in H. apply demo_sizes in H; [|reflexivity]. vm_compute in H. discriminate.
Qed.
(** ** C46 fails: after other data is loaded, Redraw pairs it with the old graph. *)
Theorem C46_stale_refuted :
  exists es d, let p := demo_steps es new_page in
  p_shown p = Some d /\ p_df p = Some (d_X d) /\ p_runs p = [] /\ p_drawings p = [] /\ ~ goes_together demo_run d.
Proof.
  exists [Load SIris; Run demo_controls; RunDone 0 demo_controls; DrawDone 0; Load SDigits; Redraw demo_controls; DrawDone 0], demo_mixed.
  split; [vm_eq|]. split; [vm_eq|]. split; [vm_eq|]. split; [vm_eq|]. exact demo_mixed_apart.
Qed.
Print Assumptions C46_stale_refuted.
(** ** C46 fails without Redraw: data loaded during a run is drawn with the graph of the run. *)
Theorem C46_race_refuted :
  exists es d, let p := demo_steps es new_page in
  (forall e, In e es -> ~ redraws e) /\
  p_shown p = Some d /\ p_df p = Some (d_X d) /\ p_runs p = [] /\ p_drawings p = [] /\ ~ goes_together demo_run d.
Proof.
  exists [Load SIris; Run demo_controls; Load SDigits; RunDone 0 demo_controls; DrawDone 0], demo_mixed.
  split; [cbn; intros e I; intuition (subst; auto)|].
  split; [vm_eq|]. split; [vm_eq|]. split; [vm_eq|]. split; [vm_eq|]. exact demo_mixed_apart.
Qed.
Print Assumptions C46_race_refuted.

(** ** C51 fails for the CSV source: with an example loaded in between, choosing CSV and
    loading keeps the example and not the file. *)
Theorem C51_csv_refuted :
  exists (file : frame QA), let p := demo_steps [Upload file; Load SIris; Load SCsv] new_page in
  p_df p = Some (demo_fix (fst demo_iris)) /\ p_df p <> Some (demo_fix file) /\ is_empty file = false.
Proof.
  exists (fst demo_digits). cbv zeta. split; [reflexivity|]. split; [|reflexivity]. intro K. apply (f_equal (option_map fr_rows)) in K. discriminate.
Qed.
Print Assumptions C51_csv_refuted.
Example C51_latest_example :
  latest demo_digits demo_iris [Upload (fst demo_digits); Load SIris; Run demo_controls; Load SCsv] (Some demo_iris).
Proof.
  apply (latest_old _ _ [Upload (fst demo_digits); Load SIris; Run demo_controls]); [reflexivity|].
  apply (latest_old _ _ [Upload (fst demo_digits); Load SIris]); [reflexivity|]. apply (latest_new _ _ [Upload (fst demo_digits)]). reflexivity.
Qed.
(** [C46_current_data] on the page showing the iris data: the digits are loaded, run
    twice, redrawn. *)
Example C46_current_example :
  let es1 := [Run demo_controls; Run demo_controls] in
  let es2 := [Redraw demo_controls; RunDone 0 demo_controls; DrawDone 1] in
  let p := demo_session (Load SIris) in
  let p' := demo_steps (Load SDigits :: es1 ++ RunDone 1 demo_controls :: es2) p in
  (forall e, In e es1 -> ~ loads e /\ ~ redraws e) /\ (forall e, In e es2 -> ~ loads e) /\
  nth_error (p_runs (demo_steps (Load SDigits :: es1) p)) 1 = Some (demo_fix (fst demo_digits), demo_cfg) /\
  demo_run (demo_fix (fst demo_digits)) demo_cfg = Ok (Some (demo_result (demo_fix (fst demo_digits)))) /\
  p_runs p = [] /\ p_drawings p = [] /\ length (p_drawings p') = 2 /\
  option_map (fun d => fr_rows (d_X d)) (p_shown p) = Some 3 /\ option_map (fun d => fr_rows (d_X d)) (p_shown p') = Some 4.
Proof.
  cbv zeta. split; [cbn; intros e I; intuition (subst; auto)|]. split; [cbn; intros e I; intuition (subst; auto)|].
  split; [vm_eq|]. split; [vm_eq|]. split; [vm_eq|]. split; [vm_eq|]. split; [vm_eq|]. split; vm_eq.
Qed.
