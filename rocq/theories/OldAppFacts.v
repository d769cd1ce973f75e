(** Facts about the caches of the former web application. *)
From Coq Require Import String Lia Sorting.Permutation.
From Verif Require Import Base BaseFacts Dict ModelArith ModelCore SpecCore ModelDraw ModelPlotly SpecPlot DrawFacts ModelApp SpecApp ModelEntry ModelOldApp SpecOldApp.
Open Scope list_scope. Open Scope nat_scope.

Section Cache.
Context {K V : Type}.
Variable dec : forall a b : K, {a = b} + {a <> b}.
Lemma stored_in (c : cache K V) k v : stored dec c k = Some v -> In (k, v) c.
Proof.
  induction c as [|[k' v'] c IH]; cbn; [discriminate|]. destruct (dec k k') as [->|N]; [intro H; injection H as ->; auto|auto].
Qed.
Lemma cached_value n k (value : res V) c : (forall v, In (k, v) c -> value = Ok v) -> snd (cached dec n k value c) = value.
Proof.
  intro H. unfold cached. destruct (stored dec c k) as [v|] eqn:E; [cbn; symmetry; apply H, stored_in, E|]. destruct value; reflexivity.
Qed.
Lemma cached_new n k (value : res V) : snd (cached dec n k value []) = value.
Proof. apply cached_value. intros v []. Qed.
Lemma firstn_in {T} n (l : list T) x : In x (firstn n l) -> In x l.
Proof. intro H. rewrite <- (firstn_skipn n l). apply in_or_app. auto. Qed.
Lemma cached_entries n k (value : res V) c k' v : In (k', v) (fst (cached dec n k value c)) -> In (k', v) c \/ (k' = k /\ value = Ok v).
Proof.
  unfold cached. destruct (stored dec c k); [auto|]. destruct value as [v'|e]; [|auto]. cbn. destruct n as [n|].
  - intro H. apply firstn_in in H. destruct H as [H|H]; [injection H as -> ->; auto|auto].
  - intros [H|H]; [injection H as -> ->; auto|auto].
Qed.
Lemma cached_ok n k (value : res V) c v : snd (cached dec n k value c) = Ok v -> In (k, v) c \/ value = Ok v.
Proof.
  unfold cached. destruct (stored dec c k) as [v'|] eqn:E; cbn; [intro H; injection H as ->; left; apply stored_in, E|].
  destruct value; cbn; auto.
Qed.
End Cache.

(** *** Sorting *)
Lemma put_perm {T} le (x : T) l : Permutation (put le x l) (x :: l).
Proof. induction l as [|y r IH]; cbn; [auto|]. destruct (le x y); [auto|]. rewrite IH. apply perm_swap. Qed.
Lemma sorted_perm {T} le (l : list T) : Permutation (py_sorted le l) l.
Proof. induction l as [|x l IH]; cbn; [auto|]. rewrite put_perm. auto. Qed.
Lemma sorted_same_perm {T} le (l l' : list T) : py_sorted le l = py_sorted le l' -> Permutation l l'.
Proof. intro H. rewrite <- (sorted_perm le l), H. apply sorted_perm. Qed.

Lemma sort_pair_cases e : sort_pair e = e \/ sort_pair e = (snd e, fst e).
Proof. unfold sort_pair. destruct (fst e <=? snd e)%Z; auto. Qed.
Lemma sort_pair_swap a b : sort_pair (a, b) = sort_pair (b, a).
Proof. unfold sort_pair. cbn. destruct (Z.leb_spec a b); destruct (Z.leb_spec b a); try reflexivity; try lia. assert (a = b) by lia. subst. reflexivity. Qed.
Lemma adjacent_listed g a b : proper_graph g -> adjacent g a b <-> In (sort_pair (a, b)) (map sort_pair (edges g)).
Proof.
  intros [W Sy]. destruct (edges_listed g W Sy) as [_ [L _]]. rewrite L. split.
  - intros [H|H]; [apply in_map; exact H|]. rewrite sort_pair_swap. apply in_map. exact H.
  - intro H. apply in_map_iff in H. destruct H as [[u v] [E I]].
    assert (Q : (u, v) = (a, b) \/ (u, v) = (b, a)).
    { destruct (sort_pair_cases (u, v)) as [Eu|Eu]; destruct (sort_pair_cases (a, b)) as [Ea|Ea]; rewrite Eu, Ea in E; cbn in E; injection E as -> ->; auto. }
    destruct Q as [Q|Q]; injection Q as -> ->; auto.
Qed.
Lemma encode_structure g g' : proper_graph g -> proper_graph g' -> encode_graph g = encode_graph g' -> same_structure g g'.
Proof.
  intros P P' H. unfold encode_graph in H. assert (H1 := f_equal fst H). assert (H2 := f_equal snd H). cbn in H1, H2. split.
  - intro n. apply sorted_same_perm in H1. split; [apply Permutation_in; exact H1|apply Permutation_in; symmetry; exact H1].
  - intros a b. rewrite (adjacent_listed g a b P), (adjacent_listed g' a b P'). apply sorted_same_perm in H2.
    split; [apply Permutation_in; exact H2|apply Permutation_in; symmetry; exact H2].
Qed.
Lemma encode_counts g g' : encode_graph g = encode_graph g' -> length (nodes g) = length (nodes g') /\ length (edges g) = length (edges g').
Proof.
  intro H. unfold encode_graph in H. assert (H1 := f_equal fst H). assert (H2 := f_equal snd H). cbn in H1, H2.
  apply sorted_same_perm, Permutation_length in H1. apply sorted_same_perm, Permutation_length in H2. rewrite !map_length in H2. auto.
Qed.

(** *** Runs *)
Section Runs.
Variable A : arith.
Variable missing : num A -> bool.
Variable nan : num A.
Variable num_dec : forall a b : num A, {a = b} + {a <> b}.
Variable lim : limits.
Variables digits iris : frame A * frame A.
Variable fetch_openml : string -> res (frame A * frame A).
Variable read_csv : Z -> res (frame A).
Variables pca umap : nat -> Z -> matrix A -> res (matrix A).
Variable algo : Type.
Variable repr : algo -> string.
Variable fit_transform : algo -> matrix A -> matrix A -> res graph.
Variable standard_scaler : matrix A -> res (matrix A).
Variable layout_of : Z -> Z -> nat -> graph -> list (list (num A)).
Variable CS : Type.
Variable get_colorscale : string -> res CS.
Variable plotly_cmap : string -> option string.
Variable str_num : num A -> string.
Notation inputs := (inputs A algo).
Notation caches := (caches A CS).
Notation load := (load_data A missing nan lim digits iris fetch_openml read_csv).
Notation lens := (lens_values A nan pca umap).
Notation mapper := (compute_mapper A algo fit_transform standard_scaler).
Notation plot := (compute_plot A lim layout_of).
Notation fig := (compute_fig A nan CS get_colorscale plotly_cmap str_num).
Notation run := (main_run A missing nan num_dec lim digits iris fetch_openml read_csv pca umap algo repr fit_transform standard_scaler layout_of CS
  get_colorscale plotly_cmap str_num).
Notation after_ := (after A missing nan num_dec lim digits iris fetch_openml read_csv pca umap algo repr fit_transform standard_scaler layout_of CS
  get_colorscale plotly_cmap str_num).
Notation own_graph := (own_graph A missing nan lim digits iris fetch_openml read_csv pca umap algo fit_transform standard_scaler).
Notation own_plot := (own_plot A missing nan lim digits iris fetch_openml read_csv pca umap algo fit_transform standard_scaler layout_of).
Notation texts_tell := (texts_tell A algo repr fit_transform).
Notation structures_tell := (structures_tell A missing nan lim digits iris fetch_openml read_csv pca umap algo fit_transform standard_scaler).
Notation positions_tell := (positions_tell A missing nan lim digits iris fetch_openml read_csv pca umap algo fit_transform standard_scaler layout_of).
Notation names_tell := (names_tell A algo).

(** What the caches hold after the runs [is]. *)
Record sound (is : list inputs) (c : caches) : Prop := mksound {
  so_data : forall s d, In (s, d) (c_data c) -> load s = Ok d;
  so_graph : forall k g, In (k, g) (c_graph c) -> exists j X y, In j is /\
    k = (repr (i_algo j), X, y, i_scale_clustering j, i_scale_cover j) /\ mapper (i_algo j) X y (i_scale_clustering j) (i_scale_cover j) = Ok g;
  so_plot : forall k m, In (k, m) (c_plot c) -> exists j g, In j is /\ own_graph j g /\
    k = (encode_graph g, i_dim j, i_seed j, i_iterations j) /\ plot g (i_dim j) (i_seed j) (i_iterations j) = Ok m }.

Lemma texts_mapper is i j X y s s' : texts_tell is -> In i is -> In j is -> repr (i_algo i) = repr (i_algo j) ->
  mapper (i_algo i) X y s s' = mapper (i_algo j) X y s s'.
Proof.
  intros T I J E. unfold compute_mapper. destruct (if s then standard_scaler X else Ok X); cbn; [|reflexivity].
  destruct (if s' then standard_scaler y else Ok y); cbn; [|reflexivity]. apply T; assumption.
Qed.
Lemma sound_more is is' c : sound is c -> (forall i, In i is -> In i is') -> sound is' c.
Proof.
  intros [H1 H2 H3] I. constructor; [exact H1| |].
  - intros k g K. destruct (H2 k g K) as [j [X [y [J Q]]]]. exists j, X, y. auto.
  - intros k m K. destruct (H3 k m K) as [j [g [J Q]]]. exists j, g. auto.
Qed.

(** The steps of a run with the caches [c]. *)
Lemma graph_step is c i df_X df_y y : sound is c -> texts_tell is -> In i is ->
  load (i_source i) = Ok (df_X, df_y) -> lens (i_lens i) df_X = Ok y ->
  let X := to_numpy A nan df_X in
  let k := (repr (i_algo i), X, y, i_scale_clustering i, i_scale_cover i) in
  let v := mapper (i_algo i) X y (i_scale_clustering i) (i_scale_cover i) in
  snd (cached (mapper_key_dec A num_dec) None k v (c_graph c)) = v.
Proof.
  intros So T I El Ey X k v. apply cached_value. intros g K. destruct (so_graph is c So k g K) as [j [X' [y' [J [E Q]]]]].
  unfold k in E. injection E as E1 E2 E3 E4 E5. subst X' y'. unfold v. rewrite (texts_mapper is i j _ _ _ _ T I J E1), E4, E5. exact Q.
Qed.

Lemma sound_run is c i : sound is c -> texts_tell (is ++ [i]) -> sound (is ++ [i]) (fst (run i c)).
Proof.
  intros So T. assert (I : In i (is ++ [i])) by (apply in_or_app; cbn; auto).
  apply (sound_more is (is ++ [i])) in So; [|intros j J; apply in_or_app; auto].
  unfold main_run.
  pose proof (cached_value source_dec (Some 1) (i_source i) (load (i_source i)) (c_data c) (so_data _ c So (i_source i))) as Vd.
  pose proof (cached_entries source_dec (Some 1) (i_source i) (load (i_source i)) (c_data c)) as Ed.
  destruct (cached source_dec (Some 1) (i_source i) (load (i_source i)) (c_data c)) as [cd r]. cbn [fst snd] in Vd, Ed. subst r.
  assert (Sd : forall s d, In (s, d) cd -> load s = Ok d).
  { intros s d K. destruct (Ed s d K) as [K'|[-> K']]; [exact (so_data _ c So s d K')|exact K']. }
  assert (S1 : sound (is ++ [i]) (mkcaches cd (c_graph c) (c_plot c) (c_fig c))).
  { constructor; cbn; [exact Sd|exact (so_graph _ c So)|exact (so_plot _ c So)]. }
  destruct (load (i_source i)) as [[df_X df_y]|e] eqn:El; [|destruct e; exact S1].
  destruct (lens (i_lens i) df_X) as [y|e] eqn:Ey; [|exact S1].
  pose proof (graph_step (is ++ [i]) c i df_X df_y y So T I El Ey) as Vg. cbv zeta in Vg.
  set (X := to_numpy A nan df_X) in *. set (k := (repr (i_algo i), X, y, i_scale_clustering i, i_scale_cover i)) in *.
  set (v := mapper (i_algo i) X y (i_scale_clustering i) (i_scale_cover i)) in *.
  pose proof (cached_entries (mapper_key_dec A num_dec) None k v (c_graph c)) as Eg.
  destruct (cached (mapper_key_dec A num_dec) None k v (c_graph c)) as [cg r]. cbn [fst snd] in Vg, Eg. subst r.
  assert (Sg : forall k g, In (k, g) cg -> exists j X y, In j (is ++ [i]) /\
    k = (repr (i_algo j), X, y, i_scale_clustering j, i_scale_cover j) /\ mapper (i_algo j) X y (i_scale_clustering j) (i_scale_cover j) = Ok g).
  { intros k' g K. destruct (Eg k' g K) as [K'|[-> K']]; [exact (so_graph _ c So k' g K')|]. exists i, X, y. auto. }
  assert (S2 : sound (is ++ [i]) (mkcaches cd cg (c_plot c) (c_fig c))) by (constructor; cbn; [exact Sd|exact Sg|exact (so_plot _ c So)]).
  destruct v as [g|e] eqn:Ev; [|exact S2].
  set (kp := (encode_graph g, i_dim i, i_seed i, i_iterations i)). set (vp := plot g (i_dim i) (i_seed i) (i_iterations i)).
  pose proof (cached_entries plot_key_dec None kp vp (c_plot c)) as Ep.
  destruct (cached plot_key_dec None kp vp (c_plot c)) as [cp r]. cbn [fst] in Ep.
  assert (Sp : forall k m, In (k, m) cp -> exists j g, In j (is ++ [i]) /\ own_graph j g /\
    k = (encode_graph g, i_dim j, i_seed j, i_iterations j) /\ plot g (i_dim j) (i_seed j) (i_iterations j) = Ok m).
  { intros k' m K. destruct (Ep k' m K) as [K'|[-> K']]; [exact (so_plot _ c So k' m K')|]. exists i, g. split; [exact I|].
    split; [exists df_X, df_y, y; auto|]. split; [reflexivity|exact K']. }
  destruct r as [m|e]; [|constructor; cbn; auto].
  destruct (cached (fig_key_dec A num_dec) None _ _ (c_fig c)) as [cf [f|e]]; constructor; cbn; auto.
Qed.
Lemma after_snoc is i : after_ (is ++ [i]) = fst (run i (after_ is)).
Proof. unfold after. rewrite fold_left_app. reflexivity. Qed.
Lemma sound_after is : texts_tell is -> sound is (after_ is).
Proof.
  induction is as [|i is IH] using rev_ind; intro T.
  - constructor; cbn; intros; contradiction.
  - rewrite after_snoc. apply sound_run; [|exact T]. apply IH. intros a b Ia Ib. apply T; apply in_or_app; auto.
Qed.

(** What is on the page. *)
Lemma run_page is i p : texts_tell (is ++ [i]) -> snd (run i (after_ is)) = Ok (Page p) ->
  load (i_source i) = Ok (o_X p, o_y p) /\ own_graph i (o_graph p) /\ o_download p = stack A nan (o_X p) (o_y p) /\
  (exists j g, In j (is ++ [i]) /\ own_graph j g /\ encode_graph g = encode_graph (o_graph p) /\
     i_dim j = i_dim i /\ i_seed j = i_seed i /\ i_iterations j = i_iterations i /\
     plot g (i_dim i) (i_seed i) (i_iterations i) = Ok (o_plot p)).
Proof.
  intros T. assert (T0 : texts_tell is) by (intros a b Ia Ib; apply T; apply in_or_app; auto).
  pose proof (sound_after is T0) as So. set (c := after_ is) in *.
  assert (I : In i (is ++ [i])) by (apply in_or_app; cbn; auto).
  apply (sound_more is (is ++ [i])) in So; [|intros j J; apply in_or_app; auto].
  unfold main_run.
  pose proof (cached_value source_dec (Some 1) (i_source i) (load (i_source i)) (c_data c) (so_data _ c So (i_source i))) as Vd.
  destruct (cached source_dec (Some 1) (i_source i) (load (i_source i)) (c_data c)) as [cd r]. cbn [fst snd] in Vd. subst r.
  destruct (load (i_source i)) as [[df_X df_y]|e] eqn:El; [|destruct e; discriminate].
  destruct (lens (i_lens i) df_X) as [y|e] eqn:Ey; [|discriminate].
  pose proof (graph_step (is ++ [i]) c i df_X df_y y So T I El Ey) as Vg. cbv zeta in Vg.
  set (X := to_numpy A nan df_X) in *. set (k := (repr (i_algo i), X, y, i_scale_clustering i, i_scale_cover i)) in *.
  set (v := mapper (i_algo i) X y (i_scale_clustering i) (i_scale_cover i)) in *.
  destruct (cached (mapper_key_dec A num_dec) None k v (c_graph c)) as [cg r]. cbn [fst snd] in Vg. subst r.
  destruct v as [g|e] eqn:Ev; [|discriminate].
  set (kp := (encode_graph g, i_dim i, i_seed i, i_iterations i)). set (vp := plot g (i_dim i) (i_seed i) (i_iterations i)).
  pose proof (cached_ok plot_key_dec None kp vp (c_plot c)) as Ep.
  destruct (cached plot_key_dec None kp vp (c_plot c)) as [cp [m|e]]; [|discriminate]. cbn [snd] in Ep.
  destruct (cached (fig_key_dec A num_dec) None _ _ (c_fig c)) as [cf [f|e]]; [|discriminate].
  cbn [snd]. intro H. injection H as <-. cbn [o_X o_y o_graph o_plot o_download].
  split; [reflexivity|]. assert (Og : own_graph i g) by (exists df_X, df_y, y; auto). split; [exact Og|]. split; [reflexivity|].
  destruct (Ep m eq_refl) as [K|K].
  - destruct (so_plot _ c So kp m K) as [j [g' [J [O [E Q]]]]]. unfold kp in E. injection E as E1 E2 E3 E4 E5.
    exists j, g'. rewrite E3, E4, E5. split; [exact J|]. split; [exact O|]. split; [unfold encode_graph; congruence|]. auto.
  - exists i, g. auto 10.
Qed.

Hypothesis proper : forall a X y g, fit_transform a X y = Ok g -> proper_graph g.
Lemma own_proper i g : own_graph i g -> proper_graph g.
Proof.
  intros [df_X [df_y [y [_ [_ H]]]]]. unfold compute_mapper in H. apply bind_ok in H. destruct H as [X' [_ H]].
  apply bind_ok in H. destruct H as [y' [_ H]]. exact (proper _ _ _ _ H).
Qed.
Definition sound_figs (is : list inputs) (c : caches) : Prop :=
  forall k f, In (k, f) (c_fig c) -> exists j m colors, In j is /\ own_plot j m /\ k = (mp_pos m, colors, i_agg_name j) /\ fig m colors (i_agg j) = Ok f.

Lemma run_faithful is c i : sound is c -> sound_figs is c ->
  texts_tell (is ++ [i]) -> structures_tell (is ++ [i]) -> positions_tell (is ++ [i]) -> names_tell (is ++ [i]) ->
  snd (run i c) = snd (run i new_caches) /\ sound_figs (is ++ [i]) (fst (run i c)).
Proof.
  intros So Sf T T2 T3 T4. assert (I : In i (is ++ [i])) by (apply in_or_app; cbn; auto).
  apply (sound_more is (is ++ [i])) in So; [|intros j J; apply in_or_app; auto].
  assert (Sf' : sound_figs (is ++ [i]) c).
  { intros k f K. destruct (Sf k f K) as [j [m [co [J Q]]]]. exists j, m, co. split; [apply in_or_app; auto|exact Q]. }
  clear Sf. unfold main_run. cbn [c_data c_graph c_plot c_fig new_caches].
  pose proof (cached_value source_dec (Some 1) (i_source i) (load (i_source i)) (c_data c) (so_data _ c So (i_source i))) as Vd.
  pose proof (cached_new source_dec (Some 1) (i_source i) (load (i_source i))) as Vd0.
  destruct (cached source_dec (Some 1) (i_source i) (load (i_source i)) (c_data c)) as [cd r]. cbn [fst snd] in Vd. subst r.
  destruct (cached source_dec (Some 1) (i_source i) (load (i_source i)) []) as [cd0 r]. cbn [fst snd] in Vd0. subst r.
  destruct (load (i_source i)) as [[df_X df_y]|e] eqn:El; [|destruct e; split; (reflexivity || exact Sf')].
  destruct (lens (i_lens i) df_X) as [y|e] eqn:Ey; [|split; [reflexivity|exact Sf']].
  pose proof (graph_step (is ++ [i]) c i df_X df_y y So T I El Ey) as Vg. cbv zeta in Vg.
  set (X := to_numpy A nan df_X) in *. set (k := (repr (i_algo i), X, y, i_scale_clustering i, i_scale_cover i)) in *.
  set (v := mapper (i_algo i) X y (i_scale_clustering i) (i_scale_cover i)) in *.
  pose proof (cached_new (mapper_key_dec A num_dec) None k v) as Vg0.
  destruct (cached (mapper_key_dec A num_dec) None k v (c_graph c)) as [cg r]. cbn [fst snd] in Vg. subst r.
  destruct (cached (mapper_key_dec A num_dec) None k v []) as [cg0 r]. cbn [fst snd] in Vg0. subst r.
  destruct v as [g|e] eqn:Ev; [|split; [reflexivity|exact Sf']].
  assert (Og : own_graph i g) by (exists df_X, df_y, y; auto).
  set (kp := (encode_graph g, i_dim i, i_seed i, i_iterations i)). set (vp := plot g (i_dim i) (i_seed i) (i_iterations i)).
  assert (Vp : snd (cached plot_key_dec None kp vp (c_plot c)) = vp).
  { apply cached_value. intros m K. destruct (so_plot _ c So kp m K) as [j [g' [J [O [E Q]]]]].
    assert (E1 := f_equal (fun x => fst (fst (fst x))) E). assert (E2 := f_equal (fun x => snd (fst (fst x))) E).
    assert (E3 := f_equal (fun x => snd (fst x)) E). assert (E4 := f_equal snd E). cbn [kp fst snd] in E1, E2, E3, E4.
    assert (g = g') by (apply (T2 i j g g' I J Og O); apply encode_structure; [exact (own_proper i g Og)|exact (own_proper j g' O)|exact E1]).
    subst g'. unfold vp. rewrite E2, E3, E4. exact Q. }
  pose proof (cached_new plot_key_dec None kp vp) as Vp0.
  destruct (cached plot_key_dec None kp vp (c_plot c)) as [cp r]. cbn [fst snd] in Vp. subst r.
  destruct (cached plot_key_dec None kp vp []) as [cp0 r]. cbn [fst snd] in Vp0. subst r.
  destruct vp as [m|e] eqn:Evp; [|split; [reflexivity|exact Sf']].
  assert (Om : own_plot i m) by (exists g; auto).
  set (colors := concat_cols A nan [df_y; df_X]). set (kf := (mp_pos m, colors, i_agg_name i)). set (vf := fig m colors (i_agg i)).
  assert (Vf : snd (cached (fig_key_dec A num_dec) None kf vf (c_fig c)) = vf).
  { apply cached_value. intros f K. destruct (Sf' kf f K) as [j [m' [co [J [O [E Q]]]]]].
    assert (E1 := f_equal (fun x => fst (fst x)) E). assert (E2 := f_equal (fun x => snd (fst x)) E). assert (E3 := f_equal snd E). cbn [kf fst snd] in E1, E2, E3.
    assert (m = m') by (exact (T3 i j m m' I J Om O E1)). subst m' co. unfold vf. rewrite (T4 i j I J E3). exact Q. }
  pose proof (cached_new (fig_key_dec A num_dec) None kf vf) as Vf0.
  pose proof (cached_entries (fig_key_dec A num_dec) None kf vf (c_fig c)) as Ef.
  destruct (cached (fig_key_dec A num_dec) None kf vf (c_fig c)) as [cf r]. cbn [fst snd] in Vf, Ef. subst r.
  destruct (cached (fig_key_dec A num_dec) None kf vf []) as [cf0 r]. cbn [fst snd] in Vf0. subst r.
  assert (Sf2 : forall k f, In (k, f) cf -> exists j m colors, In j (is ++ [i]) /\ own_plot j m /\ k = (mp_pos m, colors, i_agg_name j) /\ fig m colors (i_agg j) = Ok f).
  { intros k' f K. destruct (Ef k' f K) as [K'|[-> K']]; [exact (Sf' k' f K')|]. exists i, m, colors. auto. }
  destruct vf as [f|e]; split; try reflexivity; exact Sf2.
Qed.
Lemma tells_less is i : texts_tell (is ++ [i]) /\ structures_tell (is ++ [i]) /\ positions_tell (is ++ [i]) /\ names_tell (is ++ [i]) ->
  texts_tell is /\ structures_tell is /\ positions_tell is /\ names_tell is.
Proof.
  assert (Q : forall j, In j is -> In j (is ++ [i])) by (intros j J; apply in_or_app; auto).
  intros [T1 [T2 [T3 T4]]]. split; [|split; [|split]].
  - intros a b Ia Ib. apply T1; auto.
  - intros a b g g' Ia Ib. apply (T2 a b g g'); auto.
  - intros a b g g' Ia Ib. apply (T3 a b g g'); auto.
  - intros a b Ia Ib. apply T4; auto.
Qed.
Lemma figs_after is : texts_tell is -> structures_tell is -> positions_tell is -> names_tell is -> sound_figs is (after_ is).
Proof.
  induction is as [|i is IH] using rev_ind; intros T1 T2 T3 T4.
  - intros k f [].
  - rewrite after_snoc. destruct (tells_less is i (conj T1 (conj T2 (conj T3 T4)))) as [U1 [U2 [U3 U4]]].
    apply run_faithful; auto. apply sound_after. exact U1.
Qed.
Lemma faithful is i : texts_tell (is ++ [i]) -> structures_tell (is ++ [i]) -> positions_tell (is ++ [i]) -> names_tell (is ++ [i]) ->
  snd (run i (after_ is)) = snd (run i new_caches).
Proof.
  intros T1 T2 T3 T4. destruct (tells_less is i (conj T1 (conj T2 (conj T3 T4)))) as [U1 [U2 [U3 U4]]].
  apply (run_faithful is); auto; [apply sound_after; exact U1|apply figs_after; assumption].
Qed.
End Runs.

(** *** Stacked rows *)
Section Stack.
Variable A : arith.
Variable nan : num A.
Lemma find_none_name (cols : list (string * column_data A)) name : ~ In name (map fst cols) -> find (fun c => String.eqb (fst c) name) cols = None.
Proof.
  induction cols as [|[s c] r IH]; cbn; [reflexivity|]. intro N. destruct (String.eqb_spec s name) as [->|_]; [exfalso; auto|]. apply IH. auto.
Qed.
Lemma find_some_name (cols : list (string * column_data A)) name l : NoDup (map fst cols) -> In (name, l) cols ->
  find (fun c => String.eqb (fst c) name) cols = Some (name, l).
Proof.
  induction cols as [|[s c] r IH]; cbn; [intros _ []|]. intros N [E|I]; inversion N as [|? ? N1 N2]; subst.
  - injection E as -> ->. rewrite String.eqb_refl. reflexivity.
  - destruct (String.eqb_spec s name) as [->|_]; [|auto]. exfalso. apply N1. apply (in_map fst) in I. exact I.
Qed.
Lemma stack_names (a b : frame A) : (forall name, In name (map fst (fr_cols a)) -> ~ In name (map fst (fr_cols b))) ->
  filter (fun n => negb (existsb (String.eqb n) (map fst (fr_cols a)))) (map fst (fr_cols b)) = map fst (fr_cols b).
Proof.
  intro D. assert (Q : forall l, (forall n, In n l -> In n (map fst (fr_cols b))) -> filter (fun n => negb (existsb (String.eqb n) (map fst (fr_cols a)))) l = l).
  { induction l as [|n l IH]; intro H; cbn; [reflexivity|]. destruct (existsb (String.eqb n) (map fst (fr_cols a))) eqn:E.
    - exfalso. apply existsb_exists in E. destruct E as [n' [I E]]. apply String.eqb_eq in E. subst n'. apply (D n I). apply H. cbn. auto.
    - cbn. f_equal. apply IH. intros k K. apply H. cbn. auto. }
  apply Q. auto.
Qed.
Lemma stack_spec (a b : frame A) : full_frame a -> full_frame b -> NoDup (map fst (fr_cols a)) -> NoDup (map fst (fr_cols b)) ->
  (forall name, In name (map fst (fr_cols a)) -> ~ In name (map fst (fr_cols b))) ->
  let d := stack A nan a b in let n := fr_rows a in
  fr_rows d = n + fr_rows b /\
  map fst (fr_cols d) = map fst (fr_cols a) ++ map fst (fr_cols b) /\
  (forall name k x, In name (map fst (fr_cols a)) ->
     (value_at d name k x <-> value_at a name k x \/ (n <= k < fr_rows d /\ x = nan))) /\
  (forall name k x, In name (map fst (fr_cols b)) ->
     (value_at d name k x <-> (k < n /\ x = nan) \/ (n <= k /\ value_at b name (k - n) x))).
Proof.
  intros Fa Fb Na Nb D. cbv zeta. unfold stack. rewrite (stack_names a b D). cbn [fr_rows fr_cols].
  split; [reflexivity|]. split; [rewrite map_map; cbn; apply map_id|].
  assert (Rp : forall m k (x : num A), nth_error (repeat nan m) k = Some x <-> k < m /\ x = nan).
  { intros m k x. split.
    - intro H. assert (L : k < m) by (rewrite <- (repeat_length nan m); apply nth_error_Some; congruence). split; [exact L|].
      apply nth_error_In in H. apply repeat_spec in H. exact H.
    - intros [L ->]. apply nth_error_repeat. exact L. }
  assert (V : forall name l k x, In name (map fst (fr_cols a) ++ map fst (fr_cols b)) ->
    stack_col A (col_of A nan a name) (col_of A nan b name) = CNum l ->
    (value_at (mkframe (fr_rows a + fr_rows b) (map (fun n => (n, stack_col A (col_of A nan a n) (col_of A nan b n))) (map fst (fr_cols a) ++ map fst (fr_cols b)))) name k x
      <-> nth_error l k = Some x)).
  { intros name l k x I E. unfold value_at. cbn [fr_cols]. split.
    - intros [l' [J H]]. apply in_map_iff in J. destruct J as [n' [J _]]. injection J as -> J. rewrite E in J. injection J as ->. exact H.
    - intro H. exists l. split; [|exact H]. apply in_map_iff. exists name. rewrite E. auto. }
  split; intros name k x I.
  - destruct (in_map_iff fst (fr_cols a) name) as [Q _]. destruct (Q I) as [[s c] [Es Ic]]. cbn in Es. subst s. destruct (Fa name c Ic) as [l [-> L]].
    assert (E : stack_col A (col_of A nan a name) (col_of A nan b name) = CNum (l ++ repeat nan (fr_rows b))).
    { unfold col_of. rewrite (find_some_name _ _ _ Na Ic), (find_none_name _ _ (D name I)). reflexivity. }
    rewrite (V name _ k x (in_or_app _ _ _ (or_introl I)) E).
    assert (W : value_at a name k x <-> nth_error l k = Some x).
    { split.
      - intros [l' [J H]]. pose proof (find_some_name _ _ _ Na J) as F1. rewrite (find_some_name _ _ _ Na Ic) in F1. injection F1 as ->. exact H.
      - intro H. exists l. auto. }
    rewrite W. destruct (Nat.lt_ge_cases k (length l)) as [Lk|Lk].
    + rewrite nth_error_app1 by exact Lk. split; [auto|]. intros [H|[H _]]; [exact H|lia].
    + rewrite nth_error_app2 by exact Lk. rewrite Rp. split; [intros [H ->]; right; split; [lia|reflexivity]|].
      intros [H|[H ->]]; [apply nth_error_None in Lk; congruence|]. split; [lia|reflexivity].
  - destruct (in_map_iff fst (fr_cols b) name) as [Q _]. destruct (Q I) as [[s c] [Es Ic]]. cbn in Es. subst s. destruct (Fb name c Ic) as [l [-> L]].
    assert (Nn : ~ In name (map fst (fr_cols a))) by (intro K; exact (D name K I)).
    assert (E : stack_col A (col_of A nan a name) (col_of A nan b name) = CNum (repeat nan (fr_rows a) ++ l)).
    { unfold col_of. rewrite (find_some_name _ _ _ Nb Ic), (find_none_name _ _ Nn). reflexivity. }
    rewrite (V name _ k x (in_or_app _ _ _ (or_intror I)) E).
    assert (W : value_at b name (k - fr_rows a) x <-> nth_error l (k - fr_rows a) = Some x).
    { split.
      - intros [l' [J H]]. pose proof (find_some_name _ _ _ Nb J) as F1. rewrite (find_some_name _ _ _ Nb Ic) in F1. injection F1 as ->. exact H.
      - intro H. exists l. auto. }
    rewrite W. destruct (Nat.lt_ge_cases k (fr_rows a)) as [Lk|Lk].
    + rewrite nth_error_app1 by (rewrite repeat_length; exact Lk). rewrite Rp. split; [auto|]. intros [H|[H _]]; [exact H|lia].
    + rewrite nth_error_app2 by (rewrite repeat_length; exact Lk). rewrite repeat_length. split; [auto|]. intros [[H _]|[_ H]]; [lia|exact H].
Qed.
End Stack.
