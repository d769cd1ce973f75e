(** Properties of the former web application (app/streamlit_app.py), C72. *)
From Coq Require Import String Lia QArith.
From Verif Require Import Base BaseFacts Dict ModelArith ModelCore SpecCore ModelDraw ModelPlotly SpecPlot PropPlot ModelApp SpecApp ModelEntry.
From Verif Require Import ModelOldApp SpecOldApp OldAppFacts.
Open Scope string_scope. Open Scope list_scope. Open Scope nat_scope.

Section OldApp.
Variable A : arith.
Variable missing : num A -> bool.
Variable nan : num A.
Variable num_dec : forall a b : num A, {a = b} + {a <> b}.
Variable lim : limits.
Variables digits iris : frame A * frame A.
Variable fetch_openml : string -> res (frame A * frame A).
Variable read_csv : Z -> res (frame A).
Variables pca umap : nat -> Z -> matrix A -> res (matrix A).
Variable algo : Type.
Variable repr : algo -> string.
Variable fit_transform : algo -> matrix A -> matrix A -> res graph.
Variable standard_scaler : matrix A -> res (matrix A).
Variable layout_of : Z -> Z -> nat -> graph -> list (list (num A)).
Variable CS : Type.
Variable get_colorscale : string -> res CS.
Variable plotly_cmap : string -> option string.
Variable str_num : num A -> string.
Notation run := (main_run A missing nan num_dec lim digits iris fetch_openml read_csv pca umap algo repr fit_transform standard_scaler layout_of CS
  get_colorscale plotly_cmap str_num).
Notation after_ := (after A missing nan num_dec lim digits iris fetch_openml read_csv pca umap algo repr fit_transform standard_scaler layout_of CS
  get_colorscale plotly_cmap str_num).
Notation load := (load_data A missing nan lim digits iris fetch_openml read_csv).
Notation own_graph := (own_graph A missing nan lim digits iris fetch_openml read_csv pca umap algo fit_transform standard_scaler).
Notation texts_tell := (texts_tell A algo repr fit_transform).
Notation structures_tell := (structures_tell A missing nan lim digits iris fetch_openml read_csv pca umap algo fit_transform standard_scaler).
Notation positions_tell := (positions_tell A missing nan lim digits iris fetch_openml read_csv pca umap algo fit_transform standard_scaler layout_of).
Notation names_tell := (names_tell A algo).

(** ** C72: a run shows what a newly started app would show, if among the inputs so far algorithms with the
    same text do the same, graphs with the same nodes and edges are the same, plots with the same positions
    are the same, and aggregations with the same name are the same. *)
Theorem C72_faithful :
  (forall a X y g, fit_transform a X y = Ok g -> proper_graph g) ->
  forall is i, texts_tell (is ++ [i]) -> structures_tell (is ++ [i]) -> positions_tell (is ++ [i]) -> names_tell (is ++ [i]) ->
  snd (run i (after_ is)) = snd (run i new_caches).
Proof.
  intros P is i. exact (faithful A missing nan num_dec lim digits iris fetch_openml read_csv pca umap algo repr fit_transform standard_scaler layout_of CS
    get_colorscale plotly_cmap str_num P is i).
Qed.

(** ** C72: whatever was shown before, the data and the graph on the page are those of the inputs; the plot
    has the nodes and edges of the graph, but may be that of inputs given before. *)
Theorem C72_page :
  (forall a X y g, fit_transform a X y = Ok g -> proper_graph g) ->
  forall is i p, texts_tell (is ++ [i]) -> snd (run i (after_ is)) = Ok (Page p) ->
  load (i_source i) = Ok (o_X p, o_y p) /\ own_graph i (o_graph p) /\
  same_structure (mp_graph (o_plot p)) (o_graph p) /\ mp_dim (o_plot p) = i_dim i /\
  exists j, In j (is ++ [i]) /\ own_graph j (mp_graph (o_plot p)).
Proof.
  intros P is i p T H.
  destruct (run_page A missing nan num_dec lim digits iris fetch_openml read_csv pca umap algo repr fit_transform standard_scaler layout_of CS
    get_colorscale plotly_cmap str_num is i p T H) as [H1 [H2 [_ [j [g [J [O [E [_ [_ [_ Q]]]]]]]]]]].
  split; [exact H1|]. split; [exact H2|].
  unfold compute_plot in Q. apply bind_ok in Q. destruct Q as [_ [_ Q]]. unfold make_plot in Q. apply bind_ok in Q. destruct Q as [pos [_ Q]].
  inversion Q as [Q']. cbn [mp_graph mp_dim].
  split; [|split; [reflexivity|exists j; auto]].
  apply encode_structure; [|  |exact E]; eapply (own_proper A missing nan lim digits iris fetch_openml read_csv pca umap algo fit_transform standard_scaler P); eassumption.
Qed.

(** ** C72: with the limits enabled, no page shows more data or a larger graph, whatever was shown before. *)
Theorem C72_limits :
  forall is i p, texts_tell (is ++ [i]) -> snd (run i (after_ is)) = Ok (Page p) ->
  small_data lim (o_X p) (o_y p) /\ small_graph lim (o_graph p).
Proof.
  intros is i p T H.
  destruct (run_page A missing nan num_dec lim digits iris fetch_openml read_csv pca umap algo repr fit_transform standard_scaler layout_of CS
    get_colorscale plotly_cmap str_num is i p T H) as [H1 [_ [_ [j [g [_ [_ [E [_ [_ [_ Q]]]]]]]]]]].
  split.
  - intro En. unfold load_data in H1. apply bind_ok in H1. destruct H1 as [d [_ H1]]. apply bind_ok in H1. destruct H1 as [u [Hc H1]].
    inversion H1 as [[Ex Ey]]. unfold check_data in Hc. rewrite En in Hc.
    destruct (Z.ltb_spec (l_samples lim) (Z.of_nat (fr_rows (fix_data A missing nan (fst d))))); [discriminate|].
    match type of Hc with (if (?a <? ?b)%Z then _ else _) = _ => destruct (Z.ltb_spec a b); [discriminate|] end. lia.
  - intro En. destruct (encode_counts g (o_graph p) E) as [N1 N2]. unfold compute_plot in Q. apply bind_ok in Q. destruct Q as [u [Hc _]].
    unfold check_graph in Hc. rewrite En, N1, N2 in Hc.
    destruct (Z.ltb_spec (l_nodes lim) (Z.of_nat (length (nodes (o_graph p))))); [discriminate|].
    destruct (Z.ltb_spec (l_edges lim) (Z.of_nat (length (edges (o_graph p))))); [discriminate|]. lia.
Qed.

(** ** C72: a graph beyond the limits is refused, whatever was shown before. *)
Theorem C72_too_large :
  forall is i g, texts_tell (is ++ [i]) -> own_graph i g -> ~ small_graph lim g -> snd (run i (after_ is)) = Err ValueError.
Proof.
  intros is i g T [df_X [df_y [y [El [Ey Ev]]]]] N.
  assert (T0 : texts_tell is) by (intros a b Ia Ib; apply T; apply in_or_app; auto).
  pose proof (sound_after A missing nan num_dec lim digits iris fetch_openml read_csv pca umap algo repr fit_transform standard_scaler layout_of CS
    get_colorscale plotly_cmap str_num is T0) as So.
  assert (I : In i (is ++ [i])) by (apply in_or_app; cbn; auto).
  eapply (sound_more A missing nan lim digits iris fetch_openml read_csv pca umap algo repr fit_transform standard_scaler layout_of CS is (is ++ [i])) in So;
    [|intros j J; apply in_or_app; auto].
  set (c := after_ is) in *. unfold main_run.
  pose proof (cached_value source_dec (Some 1) (i_source i) (load (i_source i)) (c_data c) (so_data _ _ _ _ _ _ _ _ _ _ _ _ _ _ _ _ _ _ So (i_source i))) as Vd.
  destruct (cached source_dec (Some 1) (i_source i) (load (i_source i)) (c_data c)) as [cd r]. cbn [fst snd] in Vd. subst r.
  rewrite El, Ey.
  pose proof (graph_step A missing nan num_dec lim digits iris fetch_openml read_csv pca umap algo repr fit_transform standard_scaler layout_of CS (is ++ [i]) c i df_X df_y y So T I El Ey) as Vg. cbv zeta in Vg.
  rewrite Ev in Vg |- *. destruct (cached (mapper_key_dec A num_dec) None _ (Ok g) (c_graph c)) as [cg r]. cbn [snd] in Vg. subst r.
  assert (Ck : forall g', encode_graph g' = encode_graph g -> check_graph lim g' = Err ValueError).
  { intros g' E. destruct (encode_counts g' g E) as [N1 N2]. unfold check_graph. rewrite N1, N2. unfold small_graph in N.
    destruct (l_enabled lim); [|exfalso; apply N; discriminate].
    destruct (Z.ltb_spec (l_nodes lim) (Z.of_nat (length (nodes g)))); [reflexivity|].
    destruct (Z.ltb_spec (l_edges lim) (Z.of_nat (length (edges g)))); [reflexivity|]. exfalso. apply N. intros _. lia. }
  set (kp := (encode_graph g, i_dim i, i_seed i, i_iterations i)).
  assert (Ep : compute_plot A lim layout_of g (i_dim i) (i_seed i) (i_iterations i) = Err ValueError)
    by (unfold compute_plot; rewrite (Ck g eq_refl); reflexivity).
  rewrite Ep. unfold cached at 1. destruct (stored plot_key_dec (c_plot c) kp) as [m|] eqn:St; [|reflexivity].
  apply stored_in in St. destruct (so_plot _ _ _ _ _ _ _ _ _ _ _ _ _ _ _ _ _ _ So kp m St) as [j [g' [_ [_ [E Q]]]]].
  assert (E1 := f_equal (fun x => fst (fst (fst x))) E). cbn [kp fst] in E1. unfold compute_plot in Q. rewrite (Ck g' (eq_sym E1)) in Q. discriminate.
Qed.

(** ** C72: the data to download. The rows of the features are followed by the rows of the labels; a row
    has entries only for the ones or the others. *)
Theorem C72_download :
  forall is i p, texts_tell (is ++ [i]) -> snd (run i (after_ is)) = Ok (Page p) ->
  full_frame (o_X p) -> full_frame (o_y p) -> NoDup (map fst (fr_cols (o_X p))) -> NoDup (map fst (fr_cols (o_y p))) ->
  (forall name, In name (map fst (fr_cols (o_X p))) -> ~ In name (map fst (fr_cols (o_y p)))) ->
  let d := o_download p in let n := fr_rows (o_X p) in
  fr_rows d = n + fr_rows (o_y p) /\
  map fst (fr_cols d) = map fst (fr_cols (o_X p)) ++ map fst (fr_cols (o_y p)) /\
  (forall name k x, In name (map fst (fr_cols (o_X p))) ->
     (value_at d name k x <-> value_at (o_X p) name k x \/ (n <= k < fr_rows d /\ x = nan))) /\
  (forall name k x, In name (map fst (fr_cols (o_y p))) ->
     (value_at d name k x <-> (k < n /\ x = nan) \/ (n <= k /\ value_at (o_y p) name (k - n) x))).
Proof.
  intros is i p T H Fx Fy Nx Ny Dj d n.
  destruct (run_page A missing nan num_dec lim digits iris fetch_openml read_csv pca umap algo repr fit_transform standard_scaler layout_of CS
    get_colorscale plotly_cmap str_num is i p T H) as [_ [_ [Ed _]]].
  unfold d. rewrite Ed. clear d H T Ed. unfold stack. cbn [fr_rows fr_cols]. fold n.
  exact (stack_spec A nan (o_X p) (o_y p) Fx Fy Nx Ny Dj).
Qed.
End OldApp.
Print Assumptions C72_faithful.
Print Assumptions C72_page.
Print Assumptions C72_limits.
Print Assumptions C72_too_large.
Print Assumptions C72_download.

(** ** C72: the limits are enabled exactly if the variable is set to any text but the empty one. *)
Theorem C72_switch : forall env l, read_limits env = Ok l ->
  (l_enabled l = true <-> exists s, env "LIMITS_ENABLED" = Some s /\ s <> "").
Proof.
  intros env l H. unfold read_limits in H. do 4 (apply bind_ok in H; destruct H as [? [_ H]]). injection H as <-. cbn [l_enabled].
  destruct (env "LIMITS_ENABLED") as [s|].
  - destruct (String.eqb_spec s "") as [->|N]; cbn; split; try discriminate; eauto. intros [s [E K]]. congruence.
  - split; [discriminate|]. intros [s [E _]]. discriminate.
Qed.
Print Assumptions C72_switch.
(** ** C72 fails: setting it to "False" enables them. *)
Theorem C72_switch_refuted : exists env l, env "LIMITS_ENABLED" = Some "False" /\ read_limits env = Ok l /\ l_enabled l = true.
Proof.
  exists (fun name => if String.eqb name "LIMITS_ENABLED" then Some "False" else None). eexists. split; [reflexivity|]. split; reflexivity.
Qed.
Print Assumptions C72_switch_refuted.

(** *** Concrete sessions *)
Definition q (z : Z) : num QA := inject_Z z.
Definition q_dec : forall a b : num QA, {a = b} + {a <> b}.
Proof. intros [a b] [c d]. destruct (Z.eq_dec a c) as [->|N]; [destruct (Pos.eq_dec b d) as [->|N]; [left; reflexivity|]|]; right; congruence. Defined.
Definition no_miss (x : num QA) : bool := false.
Definition wide : frame QA * frame QA :=
  (mkframe 3 [("a", CNum (A := QA) [q 10; q 20; q 30])], mkframe 3 [("target", CNum (A := QA) [q 0; q 1; q 2])]).
Definition short : frame QA * frame QA :=
  (mkframe 2 [("b", CNum (A := QA) [q 5; q 6])], mkframe 2 [("target", CNum (A := QA) [q 0; q 1])]).
(** Algorithms: 0 has the clusters {0, 1} and {2}, 1 has {0} and {1, 2}, others {0} and {1}. *)
Definition d_opens (a : nat) : list (list nat) := match a with 0 => [[0; 1]; [2]] | 1 => [[0]; [1; 2]] | _ => [[0]; [1]] end.
Definition d_repr (a : nat) : string := match a with 0 => "A()" | 1 => "B()" | _ => "C()" end.
Definition d_fit (a : nat) (X y : matrix QA) : res graph := mapper_graph X (mkgen (d_opens a) None) (fun _ xs => Ok (map (fun _ => 0%Z) xs)).
Definition d_layout (iterations seed : Z) (dim : nat) (g : graph) : list (list (num QA)) := map (fun _ => repeat (q 0) dim) (g_nodes g).
Definition d_lim : limits := mklimits false 0 0 0 0.
Definition d_lens (n : nat) (seed : Z) (X : matrix QA) : res (matrix QA) := Ok (map (firstn n) X).
Definition d_mean (xs : list (num QA)) : res (num QA) := Ok (Qred (mean_of QA no_miss (q 0) xs)).
Definition d_first (xs : list (num QA)) : res (num QA) := rd xs 0.
Definition d_in (src : string) (a : nat) : inputs QA nat := mkinputs (Example_ src) (LensPca 1 42) a false false 2 42%Z 50%Z d_mean "Mean".
Definition d_run := main_run QA no_miss (q 0) q_dec d_lim wide short (fun _ => Err ValueError) (fun _ => Err ValueError) d_lens d_lens nat d_repr d_fit
  (fun X => Ok X) d_layout string (fun s => Ok s) (fun s => Some s) demo_str.
Definition d_after := after QA no_miss (q 0) q_dec d_lim wide short (fun _ => Err ValueError) (fun _ => Err ValueError) d_lens d_lens nat d_repr d_fit
  (fun X => Ok X) d_layout string (fun s => Ok s) (fun s => Some s) demo_str.
Definition node_colors (r : res (screen QA string)) : list (option (num QA)) :=
  match r with
  | Ok (Page p) => match nth_error (f_traces (o_fig p)) 1 with Some nt => [shown nt "marker.color" 0; shown nt "marker.color" 1] | None => [] end
  | _ => []
  end.
Definition node_ids (r : res (screen QA string)) : list (list nat) :=
  match r with Ok (Page p) => map (fun x => snd (snd x)) (g_nodes (o_graph p)) | _ => [] end.
Lemma d_texts is : texts_tell QA nat d_repr d_fit is.
Proof.
  intros i j _ _ E X y. unfold d_repr in E. unfold d_fit. destruct (i_algo i) as [|[|a]]; destruct (i_algo j) as [|[|b]]; try discriminate; reflexivity.
Qed.
Lemma d_proper a X y g : d_fit a X y = Ok g -> proper_graph g.
Proof. intro H. destruct (C41_mapper_graphs_drawable _ _ _ _ _ H) as [W [S _]]. split; assumption. Qed.

Definition is_page (r : res (screen QA string)) : bool := match r with Ok (Page _) => true | _ => false end.
Lemma page_ex r : is_page r = true -> exists p, r = Ok (Page p).
Proof. destruct r as [[|p]|e]; try discriminate. eauto. Qed.
Definition downloaded (r : res (screen QA string)) : nat * nat * frame QA :=
  match r with Ok (Page p) => (fr_rows (o_X p), fr_rows (o_y p), o_download p) | _ => (0, 0, no_frame) end.
Ltac vm_eq := match goal with |- _ = ?r => vm_cast_no_check (eq_refl r) end.

(** ** C72 fails: after another graph with the same nodes and edges was shown, its clusters are coloured:
    the second node has the points 1 and 2 with target 1 and 2, and is coloured with 2 instead of 3/2. *)
Theorem C72_stale_colors_refuted :
  exists is i, texts_tell QA nat d_repr d_fit (is ++ [i]) /\
    node_ids (snd (d_run i (d_after is))) = [[0]; [1; 2]] /\
    node_colors (snd (d_run i new_caches)) = [Some (q 0); Some (3 # 2)%Q] /\
    node_colors (snd (d_run i (d_after is))) = [Some (1 # 2)%Q; Some (q 2)].
Proof.
  exists [d_in "Digits" 0], (d_in "Digits" 1). split; [apply d_texts|]. split; [|split]; vm_eq.
Qed.
Print Assumptions C72_stale_colors_refuted.
(** ** C72 fails: with less data than before the run can even raise. *)
Theorem C72_stale_raises_refuted :
  exists is i p, texts_tell QA nat d_repr d_fit (is ++ [i]) /\
    snd (d_run i new_caches) = Ok (Page p) /\ snd (d_run i (d_after is)) = Err IndexError.
Proof.
  exists [d_in "Digits" 0], (d_in "Iris" 2).
  assert (H : is_page (snd (d_run (d_in "Iris" 2) new_caches)) = true) by vm_eq.
  destruct (page_ex _ H) as [p E]. exists p. split; [apply d_texts|]. split; [exact E|]. vm_eq.
Qed.
Print Assumptions C72_stale_raises_refuted.
(** ** C72 fails: the download of the data has no row with both the feature and the label of a sample:
    here zeros stand for missing entries. *)
Theorem C72_download_refuted :
  exists i p, snd (d_run i new_caches) = Ok (Page p) /\ fr_rows (o_X p) = 3 /\ fr_rows (o_y p) = 3 /\
    o_download p = mkframe 6 [("a", CNum (A := QA) [q 10; q 20; q 30; q 0; q 0; q 0]); ("target", CNum (A := QA) [q 0; q 0; q 0; q 0; q 1; q 2])].
Proof.
  exists (d_in "Digits" 0).
  assert (H : is_page (snd (d_run (d_in "Digits" 0) new_caches)) = true) by vm_eq.
  assert (D : downloaded (snd (d_run (d_in "Digits" 0) new_caches)) =
    (3, 3, mkframe 6 [("a", CNum (A := QA) [q 10; q 20; q 30; q 0; q 0; q 0]); ("target", CNum (A := QA) [q 0; q 0; q 0; q 0; q 1; q 2])])) by vm_eq.
  destruct (page_ex _ H) as [p E]. exists p. split; [exact E|]. rewrite E in D. cbn [downloaded] in D.
  assert (D1 := f_equal (fun x => fst (fst x)) D). assert (D2 := f_equal (fun x => snd (fst x)) D). assert (D3 := f_equal snd D).
  cbn [fst snd] in D1, D2, D3. auto.
Qed.
Print Assumptions C72_download_refuted.

(** A session meeting the hypotheses of [C72_faithful]: only the aggregation changes. *)
Definition d_other : inputs QA nat := mkinputs (Example_ "Digits") (LensPca 1 42) 1 false false 2 42%Z 50%Z d_first "First".
Example C72_faithful_example :
  snd (d_run d_other (d_after [d_in "Digits" 1])) = snd (d_run d_other new_caches) /\
  node_colors (snd (d_run d_other (d_after [d_in "Digits" 1]))) = [Some (q 0); Some (q 1)].
Proof.
  assert (Eq : forall j k, In j ([d_in "Digits" 1] ++ [d_other]) -> In k ([d_in "Digits" 1] ++ [d_other]) ->
    i_source j = i_source k /\ i_lens j = i_lens k /\ i_algo j = i_algo k /\ i_scale_clustering j = i_scale_clustering k /\
    i_scale_cover j = i_scale_cover k /\ i_dim j = i_dim k /\ i_seed j = i_seed k /\ i_iterations j = i_iterations k /\
    (i_agg_name j = i_agg_name k -> i_agg j = i_agg k)).
  { intros j k J K. cbn in J, K. destruct J as [<-|[<-|[]]]; destruct K as [<-|[<-|[]]]; repeat (split; [reflexivity|]); cbn; (reflexivity || discriminate). }
  split; [|vm_eq].
  apply C72_faithful.
  - exact d_proper.
  - apply d_texts.
  - intros j k g g' J K Hj Hk _. destruct (Eq j k J K) as [E1 [E2 [E3 [E4 [E5 _]]]]].
    destruct Hj as [x1 [y1 [z1 [L1 [L2 L3]]]]]. destruct Hk as [x2 [y2 [z2 [M1 [M2 M3]]]]].
    rewrite E1 in L1. rewrite L1 in M1. injection M1 as -> ->. rewrite E2 in L2. rewrite L2 in M2. injection M2 as ->.
    rewrite E3, E4, E5 in L3. congruence.
  - intros j k m m' J K Hj Hk _. destruct (Eq j k J K) as [E1 [E2 [E3 [E4 [E5 [E6 [E7 [E8 _]]]]]]]].
    destruct Hj as [g [Hj P1]]. destruct Hk as [g' [Hk P2]].
    destruct Hj as [x1 [y1 [z1 [L1 [L2 L3]]]]]. destruct Hk as [x2 [y2 [z2 [M1 [M2 M3]]]]].
    rewrite E1 in L1. rewrite L1 in M1. injection M1 as -> ->. rewrite E2 in L2. rewrite L2 in M2. injection M2 as ->.
    rewrite E3, E4, E5 in L3. rewrite L3 in M3. injection M3 as ->. rewrite E6, E7, E8 in P1. congruence.
  - intros j k J K. apply (Eq j k J K).
Qed.
(** With limits. *)
Definition tight_run := main_run QA no_miss (q 0) q_dec (mklimits true 3 2 1 0) wide short (fun _ => Err ValueError) (fun _ => Err ValueError) d_lens d_lens nat
  d_repr d_fit (fun X => Ok X) d_layout string (fun s => Ok s) (fun s => Some s) demo_str.
Example C72_limits_example :
  snd (tight_run (d_in "Digits" 0) new_caches) = Err ValueError /\
  snd (main_run QA no_miss (q 0) q_dec (mklimits true 2 2 9 9) wide short (fun _ => Err ValueError) (fun _ => Err ValueError) d_lens d_lens nat
    d_repr d_fit (fun X => Ok X) d_layout string (fun s => Ok s) (fun s => Some s) demo_str (d_in "Digits" 0) new_caches) = Ok Message.
Proof. split; vm_eq. Qed.
