(** Proofs about notifications, for C60. *)
From Coq Require Import String Lia.
From Verif Require Import Base BaseFacts ModelArith ModelCore ModelDraw ModelPlotly SpecPlot ModelApp SpecApp AppRun PropPlot ModelNotify SpecNotify.
Open Scope nat_scope.

(** *** Lists of notifications *)
Lemma set_note_length i x l : length (set_note i x l) = length l.
Proof. revert i. induction l as [|y l IH]; intros [|i]; cbn; auto. Qed.
Lemma set_note_same i x l : i < length l -> nth_error (set_note i x l) i = Some x.
Proof. revert i. induction l as [|y l IH]; intros [|i] H; cbn in *; try lia; auto. apply IH. lia. Qed.
Lemma set_note_other i j x l : i <> j -> nth_error (set_note i x l) j = nth_error l j.
Proof. revert i j. induction l as [|y l IH]; intros [|i] [|j] H; cbn; auto; try congruence. Qed.
Lemma spinning_app a b : spinning (a ++ b) = spinning a + spinning b.
Proof. unfold spinning. rewrite filter_app, app_length. reflexivity. Qed.
Lemma set_note_spins i x y l : nth_error l i = Some y -> n_spinner y = true -> n_spinner x = false -> S (spinning (set_note i x l)) = spinning l.
Proof.
  revert i. induction l as [|z l IH]; intros [|i] E Y X; try discriminate.
  - injection E as ->. unfold spinning. cbn. rewrite X, Y. reflexivity.
  - cbn in E. specialize (IH i E Y X). unfold spinning in *. cbn. destruct (n_spinner z); cbn; lia.
Qed.
Lemma set_note_still i x y l : nth_error l i = Some y -> n_spinner y = false -> n_spinner x = false -> spinning (set_note i x l) = spinning l.
Proof.
  revert i. induction l as [|z l IH]; intros [|i] E Y X; try discriminate.
  - injection E as ->. unfold spinning. cbn. rewrite X, Y. reflexivity.
  - cbn in E. specialize (IH i E Y X). unfold spinning in *. cbn. destruct (n_spinner z); cbn; lia.
Qed.
Lemma remove_nth_length {X : Type} k (l : list X) x : nth_error l k = Some x -> S (length (remove_nth k l)) = length l.
Proof.
  intros E. assert (k < length l) by (apply nth_error_Some; congruence). unfold remove_nth. rewrite app_length, firstn_length, skipn_length. lia.
Qed.
Lemma remove_nth_split {X : Type} k (l : list X) x : nth_error l k = Some x -> exists a b, l = a ++ x :: b /\ remove_nth k l = a ++ b.
Proof.
  revert l. induction k as [|k IH]; intros [|y l] E; try discriminate.
  - injection E as ->. exists [], l. split; reflexivity.
  - destruct (IH l E) as [a [b [E1 E2]]]. exists (y :: a), b. split; [cbn; rewrite E1; reflexivity|]. unfold remove_nth in *. cbn. f_equal. exact E2.
Qed.
Lemma in_remove_nth {X : Type} k (l : list X) x : In x (remove_nth k l) -> In x l.
Proof.
  unfold remove_nth. rewrite in_app_iff. intros [I|I].
  - rewrite <- (firstn_skipn k l). apply in_or_app. left. exact I.
  - rewrite <- (firstn_skipn (S k) l). apply in_or_app. right. exact I.
Qed.

(** [shows ns i sp]: notification [i] exists and its spinner is [sp]. *)
Definition shows (ns : list note) (i : nat) (sp : bool) : Prop := exists x, nth_error ns i = Some x /\ n_spinner x = sp.
Lemma shows_lt ns i sp : shows ns i sp -> i < length ns.
Proof. intros [x [E _]]. apply nth_error_Some. congruence. Qed.
Lemma shows_app ns ms i sp : shows ns i sp -> shows (ns ++ ms) i sp.
Proof. intros [x [E S]]. exists x. split; [|exact S]. rewrite nth_error_app1; [exact E|]. apply nth_error_Some. congruence. Qed.
Lemma shows_new ns x : shows (ns ++ [x]) (length ns) (n_spinner x).
Proof. exists x. split; [|reflexivity]. rewrite nth_error_app2, Nat.sub_diag; [reflexivity|lia]. Qed.
Lemma shows_set ns i j x sp : i <> j -> shows ns j sp -> shows (set_note i x ns) j sp.
Proof. intros N [y [E S]]. exists y. split; [|exact S]. rewrite set_note_other; assumption. Qed.
Lemma shows_set_still ns i j x : n_spinner x = false -> shows ns j false -> shows (set_note i x ns) j false.
Proof.
  intros X H. destruct (Nat.eq_dec i j) as [->|N]; [|apply shows_set; assumption]. exists x. split; [|exact X]. apply set_note_same. apply (shows_lt _ _ _ H).
Qed.
Lemma shows_set_own ns i x : n_spinner x = false -> i < length ns -> shows (set_note i x ns) i false.
Proof. intros X L. exists x. split; [apply set_note_same; exact L|exact X]. Qed.
Lemma shows_fun ns i a b : shows ns i a -> shows ns i b -> a = b.
Proof. intros [x [E <-]] [y [E' <-]]. congruence. Qed.

Section Notify.
Variable A : arith.
Notation num := (num A).
Variable missing : num -> bool.
Variable nan : num.
Variable trunc : num -> res Z.
Variables pca umap : Z -> matrix A -> res (matrix A).
Variable scaler : matrix A -> res (matrix A).
Variable mapper_fit : cover_spec A -> clust_spec A -> matrix A -> matrix A -> res graph.
Variable CS : Type.
Variable get_colorscale : string -> res CS.
Variable plotly_cmap : string -> option string.
Variable str_num : num -> string.
Variable layout_of : Z -> Z -> nat -> graph -> list (list num).
Variables digits iris : frame A * frame A.
Variable str_exn : exn -> string.
Notation step := (step A missing nan trunc pca umap scaler mapper_fit CS get_colorscale plotly_cmap str_num layout_of digits iris).
Notation steps := (steps A missing nan trunc pca umap scaler mapper_fit CS get_colorscale plotly_cmap str_num layout_of digits iris).
Notation nstep := (nstep A missing nan trunc pca umap scaler mapper_fit CS get_colorscale plotly_cmap str_num layout_of digits iris str_exn).
Notation nsteps := (nsteps A missing nan trunc pca umap scaler mapper_fit CS get_colorscale plotly_cmap str_num layout_of digits iris str_exn).
Notation conf := (get_mapper_config A trunc).
Notation run := (run_mapper A nan pca umap scaler mapper_fit).
Notation draw := (fun d => create_mapper_figure A missing nan CS get_colorscale plotly_cmap str_num layout_of (d_X d) (d_y d) (d_target d) (d_graph d) (d_config d)).
Notation abandons := (abandons A (figure A CS) conf run draw).
Notation abandoned := (abandoned A (figure A CS) conf run draw step).
Notation npage := (npage A).

(** The computations and their notifications go together; pending ones spin, and a run
    waiting for a drawing does not. *)
Record told (q : npage) : Prop := mktold {
  t_runs : length (np_runs q) = length (p_runs (np_page q));
  t_draws : length (np_drawings q) = length (p_drawings (np_page q));
  t_spin : forall i, In i (np_runs q ++ map fst (np_drawings q)) -> shows (np_notes q) i true;
  t_once : NoDup (np_runs q ++ map fst (np_drawings q));
  t_wait : forall i r, In (i, Some r) (np_drawings q) -> shows (np_notes q) r false }.

Lemma told_new : told (new_npage A).
Proof. split; cbn; try reflexivity; try constructor; contradiction. Qed.

Lemma abandons_dec e p : abandons e p \/ ~ abandons e p.
Proof.
  destruct e as [d|s|c|k c|c|k].
  - right. intros H. inversion H.
  - right. intros H. inversion H.
  - destruct (is_empty (get_frame A (p_df p))) eqn:E; [right; intros H; inversion H; congruence|].
    destruct (conf c) as [cfg|e] eqn:C; [right; intros H; inversion H; congruence|]. left. eapply ab_run; eassumption.
  - destruct (nth_error (p_runs p) k) as [[df cfg]|] eqn:E; [|right; intros H; inversion H; congruence].
    destruct (run df cfg) as [[gy|]|e] eqn:R; [|right; intros H; inversion H; congruence|right; intros H; inversion H; congruence].
    destruct (conf c) as [cfg'|e] eqn:C; [right; intros H; inversion H; congruence|]. left. eapply ab_run_done; eassumption.
  - destruct (conf c) as [cfg|e] eqn:C; [right; intros H; inversion H; congruence|]. left. eapply ab_redraw; eassumption.
  - destruct (nth_error (p_drawings p) k) as [d|] eqn:E; [|right; intros H; inversion H; congruence].
    destruct (draw d) as [f|e] eqn:R; [right; intros H; inversion H; congruence|]. left. eapply ab_draw_done; eassumption.
Qed.

Lemma abandoned_total es : forall p, exists n, abandoned p es n.
Proof.
  induction es as [|e es IH]; intros p; [exists 0; constructor|]. destruct (IH (step e p)) as [n H].
  destruct (abandons_dec e p) as [Y|N]; [exists (S n)|exists n]; constructor; assumption.
Qed.

(** What a step adds to the number of spinners: nothing beyond the computations it starts,
    or one if it is abandoned. *)
Definition balance (q q' : npage) (n : nat) : Prop :=
  spinning (np_notes q') + length (p_runs (np_page q)) + length (p_drawings (np_page q)) =
  spinning (np_notes q) + length (p_runs (np_page q')) + length (p_drawings (np_page q')) + n.

Lemma nodup_insert (a b : list nat) x : NoDup (a ++ b) -> ~ In x (a ++ b) -> NoDup ((a ++ [x]) ++ b).
Proof. intros H N. rewrite <- app_assoc. cbn. apply NoDup_Add with (a := x) (l := a ++ b); [apply Add_app|]. split; assumption. Qed.

Lemma told_tell r e ns i : (forall j, r = Some j -> shows ns j false) -> shows ns i true -> shows (tell_run str_exn r e ns) i true.
Proof.
  intros W H. destruct r as [j|]; [|exact H]. cbn. apply shows_set; [|exact H]. intros ->. specialize (W _ eq_refl). assert (true = false) by (eapply shows_fun; eassumption). discriminate.
Qed.
Lemma told_tell_still r e ns i : shows ns i false -> shows (tell_run str_exn r e ns) i false.
Proof. intros H. destruct r as [j|]; [|exact H]. apply shows_set_still; [reflexivity|exact H]. Qed.
Lemma tell_spinning r e ns : (forall j, r = Some j -> shows ns j false) -> spinning (tell_run str_exn r e ns) = spinning ns.
Proof. intros W. destruct r as [j|]; [|reflexivity]. destruct (W _ eq_refl) as [y [E Y]]. cbn. eapply set_note_still; [exact E|exact Y|reflexivity]. Qed.

(** Starting to draw. *)
Lemma start_draw_told c p r ns runs ds said :
  told (mknpage A p ns runs ds said) -> (forall j, r = Some j -> shows ns j false) ->
  let '(ns', ds') := start_draw_notes A trunc str_exn c p r ns in
  let q' := mknpage A (start_draw A trunc c p) ns' runs (ds ++ ds') said in
  told q' /\ balance (mknpage A p ns runs ds said) q' (match conf c with Ok _ => 0 | Err _ => 1 end).
Proof.
  intros [T1 T2 T3 T4 T5] W. cbn [np_page np_runs np_drawings np_notes] in *. unfold start_draw_notes, start_draw.
  destruct (conf c) as [cfg|e] eqn:C.
  - destruct (is_empty (get_frame A (p_df p))); [|destruct (p_graph p) as [g|] eqn:G].
    + rewrite app_nil_r. split.
      * split; cbn [np_page np_runs np_drawings np_notes]; auto; intros; apply shows_app; eauto.
      * unfold balance. cbn [np_page np_notes]. rewrite spinning_app. cbn. lia.
    + split.
      * split; cbn [np_page np_runs np_drawings np_notes p_runs p_drawings]; auto.
        -- rewrite !app_length. cbn. lia.
        -- intros i. rewrite map_app, app_assoc, in_app_iff. intros [I|[<-|[]]]; [apply shows_app; auto|]. apply (shows_new ns (started "Drawing Mapper...")).
        -- rewrite map_app, app_assoc. cbn [map fst]. apply NoDup_Add with (a := length ns) (l := runs ++ map fst ds).
           ++ rewrite <- (app_nil_r (runs ++ map fst ds)) at 1. apply Add_app.
           ++ split; [exact T4|]. intros I. apply T3, shows_lt in I. lia.
        -- intros i r'. rewrite in_app_iff. intros [I|[I|[]]]; [apply shows_app; eauto|]. injection I as <- ->. apply shows_app. auto.
      * unfold balance. cbn [np_page np_notes p_runs p_drawings]. rewrite spinning_app, app_length. cbn. lia.
    + rewrite app_nil_r. split.
      * split; cbn [np_page np_runs np_drawings np_notes]; auto; intros; apply shows_app; eauto.
      * unfold balance. cbn [np_page np_notes]. rewrite spinning_app. cbn. lia.
  - rewrite app_nil_r. assert (W' : forall j, r = Some j -> shows (ns ++ [started "Drawing Mapper..."]) j false) by (intros j E; apply shows_app; auto). split.
    + split; cbn [np_page np_runs np_drawings np_notes]; auto.
      * intros i I. apply told_tell; [exact W'|]. apply shows_app. auto.
      * intros i r' I. apply told_tell_still. apply shows_app. eauto.
    + unfold balance. cbn [np_page np_notes]. rewrite tell_spinning by exact W'. rewrite spinning_app. cbn. lia.
Qed.

(** Stopping the notification of a run that came back. *)
Lemma stop_run_told p p' ns runs ds said k i x :
  told (mknpage A p ns runs ds said) -> nth_error runs k = Some i -> n_spinner x = false ->
  (exists y, nth_error (p_runs p) k = Some y) -> p_runs p' = remove_nth k (p_runs p) -> p_drawings p' = p_drawings p ->
  let q' := mknpage A p' (set_note i x ns) (remove_nth k runs) ds said in
  told q' /\ balance (mknpage A p ns runs ds said) q' 0 /\ shows (set_note i x ns) i false.
Proof.
  intros [T1 T2 T3 T4 T5] Ei X [y Ey] E1 E2. cbn [np_page np_runs np_drawings np_notes] in *.
  assert (Si : shows ns i true) by (apply T3, in_or_app; left; eapply nth_error_In; exact Ei).
  assert (Li : i < length ns) by (eapply shows_lt; exact Si).
  destruct (remove_nth_split k runs i Ei) as [a [b [Er Er']]].
  assert (Ni : ~ In i ((a ++ b) ++ map fst ds)).
  { rewrite Er, <- app_assoc in T4. cbn in T4. apply NoDup_remove_2 in T4. rewrite app_assoc in T4. exact T4. }
  split; [|split].
  - split; cbn [np_page np_runs np_drawings np_notes].
    + rewrite E1. pose proof (remove_nth_length k runs i Ei). pose proof (remove_nth_length k (p_runs p) y Ey). lia.
    + rewrite E2. exact T2.
    + rewrite Er'. intros j I. apply shows_set; [intros ->; contradiction|]. apply T3. rewrite Er, !in_app_iff in *. cbn. tauto.
    + rewrite Er'. rewrite Er, <- app_assoc in T4. cbn in T4. apply NoDup_remove_1 in T4. rewrite <- app_assoc. exact T4.
    + intros j r I. apply shows_set_still; [exact X|]. eauto.
  - unfold balance. cbn [np_page np_notes]. rewrite E1, E2. destruct Si as [z [Ez Z]]. pose proof (set_note_spins i x z ns Ez Z X).
    pose proof (remove_nth_length k (p_runs p) y Ey). lia.
  - apply shows_set_own; assumption.
Qed.

(** The end of a drawing. *)
Lemma draw_done_told p p' ns runs ds said k i r ns' n :
  told (mknpage A p ns runs ds said) -> nth_error ds k = Some (i, r) ->
  (exists y, nth_error (p_drawings p) k = Some y) -> p_runs p' = p_runs p -> p_drawings p' = remove_nth k (p_drawings p) ->
  (forall j, j <> i -> shows ns j true -> shows ns' j true) -> (forall j, shows ns j false -> shows ns' j false) ->
  S (spinning ns') = spinning ns + n ->
  let q' := mknpage A p' ns' runs (remove_nth k ds) said in
  told q' /\ balance (mknpage A p ns runs ds said) q' n.
Proof.
  intros [T1 T2 T3 T4 T5] Ei [y Ey] E1 E2 H1 H2 H3. cbn [np_page np_runs np_drawings np_notes] in *.
  destruct (remove_nth_split k ds (i, r) Ei) as [a [b [Er Er']]].
  assert (Em : map fst ds = map fst a ++ i :: map fst b) by (rewrite Er, map_app; reflexivity).
  assert (Nn : NoDup (runs ++ map fst a ++ map fst b) /\ ~ In i (runs ++ map fst a ++ map fst b)).
  { rewrite Em, app_assoc in T4. split; rewrite app_assoc; [apply NoDup_remove_1 in T4|apply NoDup_remove_2 in T4]; exact T4. }
  destruct Nn as [Nn Ni]. split.
  - split; cbn [np_page np_runs np_drawings np_notes].
    + rewrite E1. exact T1.
    + rewrite E2. pose proof (remove_nth_length k ds (i, r) Ei). pose proof (remove_nth_length k (p_drawings p) y Ey). lia.
    + rewrite Er', map_app. intros j I. apply H1; [intros ->; contradiction|]. apply T3. rewrite Em, !in_app_iff in *. cbn. tauto.
    + rewrite Er', map_app. exact Nn.
    + intros j s I. apply H2. apply in_remove_nth in I. eauto.
  - unfold balance. cbn [np_page np_notes]. rewrite E1, E2. pose proof (remove_nth_length k (p_drawings p) y Ey). lia.
Qed.

Lemma nstep_told e q : told q ->
  told (nstep e q) /\ np_page (nstep e q) = step e (np_page q) /\
  exists n, (n = 1 /\ abandons e (np_page q) \/ n = 0 /\ ~ abandons e (np_page q)) /\ balance q (nstep e q) n.
Proof.
  destruct q as [p ns runs ds said]. intros T. pose proof T as [T1 T2 T3 T4 T5]. cbn [np_page np_runs np_drawings np_notes] in *.
  destruct e as [d|s|c|k c|c|k].
  - (* Upload *) split; [|split; [reflexivity|]]; [split; auto|].
    exists 0. split; [right; split; [reflexivity|intros H; inversion H]|]. unfold balance. cbn. lia.
  - (* Load *) assert (P : p_runs (step (Load s) p) = p_runs p /\ p_drawings (step (Load s) p) = p_drawings p) by (destruct s; split; reflexivity).
    destruct P as [P1 P2]. destruct s; (split; [split; auto|split; [reflexivity|]]);
      (exists 0; split; [right; split; [reflexivity|intros H; inversion H]|]; unfold balance; cbn; lia).
  - (* Run *) unfold nstep, ModelNotify.nstep. cbn [np_page np_runs np_drawings np_notes np_said].
    destruct (is_empty (get_frame A (p_df p))) eqn:E; [|destruct (conf c) as [cfg|e] eqn:C].
    + assert (P : step (Run c) p = p) by (cbn; rewrite E; reflexivity). cbn [np_page]. rewrite P. split; [|split; [reflexivity|]].
      * split; cbn [np_page np_runs np_drawings np_notes]; auto; intros; apply shows_app; eauto.
      * exists 0. split; [right; split; [reflexivity|intros H; inversion H; congruence]|]. unfold balance. cbn [np_page np_notes]. rewrite spinning_app. cbn. lia.
    + assert (P : p_runs (step (Run c) p) = p_runs p ++ [(get_frame A (p_df p), cfg)] /\ p_drawings (step (Run c) p) = p_drawings p) by (cbn; rewrite E, C; split; reflexivity).
      destruct P as [P1 P2]. cbn [np_page]. split; [|split; [reflexivity|]].
      * split; cbn [np_page np_runs np_drawings np_notes].
        -- rewrite P1, !app_length, T1. reflexivity.
        -- rewrite P2. exact T2.
        -- intros i. rewrite !in_app_iff. intros [[I|[<-|[]]]|I].
           ++ apply shows_app, T3, in_or_app. left. exact I.
           ++ apply (shows_new ns (started "Running Mapper...")).
           ++ apply shows_app, T3, in_or_app. right. exact I.
        -- apply nodup_insert; [exact T4|]. intros I. apply T3, shows_lt in I. lia.
        -- intros i r I. apply shows_app. eauto.
      * exists 0. split; [right; split; [reflexivity|intros H; inversion H; congruence]|]. unfold balance. cbn [np_page np_notes]. rewrite P1, P2, spinning_app, app_length. cbn. lia.
    + assert (P : step (Run c) p = p) by (cbn; rewrite E, C; reflexivity). cbn [np_page]. rewrite P. split; [|split; [reflexivity|]].
      * split; cbn [np_page np_runs np_drawings np_notes]; auto; intros; apply shows_app; eauto.
      * exists 1. split; [left; split; [reflexivity|eapply ab_run; eassumption]|]. unfold balance. cbn [np_page np_notes]. rewrite spinning_app. cbn. lia.
  - (* RunDone *) unfold nstep, ModelNotify.nstep. cbn [np_page np_runs np_drawings np_notes np_said].
    destruct (nth_error (p_runs p) k) as [[df cfg]|] eqn:Er.
    2:{ assert (P : step (RunDone k c) p = p) by (cbn; rewrite Er; reflexivity). rewrite P. split; [exact T|split; [reflexivity|]].
        exists 0. split; [right; split; [reflexivity|intros H; inversion H; congruence]|]. unfold balance. cbn. lia. }
    destruct (nth_error runs k) as [i|] eqn:Ei.
    2:{ exfalso. apply nth_error_None in Ei. assert (k < length (p_runs p)) by (apply nth_error_Some; congruence). lia. }
    set (p0 := mkpage (p_df p) (p_labels p) (p_y p) (p_graph p) (remove_nth k (p_runs p)) (p_drawings p) (p_shown p)).
    destruct (run df cfg) as [[[g y]|]|e] eqn:R.
    + set (p1 := mkpage (p_df p) (p_labels p) (Some y) (Some g) (remove_nth k (p_runs p)) (p_drawings p) (p_shown p)).
      assert (P : step (RunDone k c) p = start_draw A trunc c p1) by (cbn; rewrite Er, R; reflexivity).
      destruct (stop_run_told p p1 ns runs ds said k i (stopped "Run Mapper completed." Positive) T Ei eq_refl (ex_intro _ _ Er) eq_refl eq_refl) as [U [B V]].
      rewrite P. set (ns1 := set_note i _ ns) in *.
      pose proof (start_draw_told c p1 (Some i) ns1 (remove_nth k runs) ds said U) as D.
      assert (W : forall j, Some i = Some j -> shows ns1 j false) by (intros j [= <-]; exact V). specialize (D W).
      (* the notes look at the page after the step, the model's [start_draw] at the one before: same data and graph *)
      assert (S1 : start_draw_notes A trunc str_exn c (start_draw A trunc c p1) (Some i) ns1 = start_draw_notes A trunc str_exn c p1 (Some i) ns1).
      { unfold start_draw_notes, start_draw. destruct (conf c); [|reflexivity]. destruct (is_empty (get_frame A (p_df p1))) eqn:EE; [rewrite EE; reflexivity|]. cbn [p1 p_graph p_df]. cbn [p1 p_df] in EE. rewrite EE. reflexivity. }
      rewrite S1. destruct (start_draw_notes A trunc str_exn c p1 (Some i) ns1) as [ns2 ds2]. destruct D as [D1 D2]. split; [exact D1|split; [reflexivity|]].
      destruct (conf c) as [cfg'|e] eqn:C.
      * exists 0. split; [right; split; [reflexivity|intros H; inversion H; congruence]|]. unfold balance in *. cbn [np_page np_notes] in *. lia.
      * exists 1. split; [left; split; [reflexivity|eapply ab_run_done; eassumption]|]. unfold balance in *. cbn [np_page np_notes] in *. lia.
    + assert (P : step (RunDone k c) p = p0) by (cbn; rewrite Er, R; reflexivity).
      destruct (stop_run_told p p0 ns runs ds said k i (stopped "Run Mapper failed: something went wrong." Error) T Ei eq_refl (ex_intro _ _ Er) eq_refl eq_refl) as [U [B V]].
      rewrite P. split; [exact U|split; [reflexivity|]]. exists 0. split; [right; split; [reflexivity|intros H; inversion H; congruence]|]. exact B.
    + assert (P : step (RunDone k c) p = p0) by (cbn; rewrite Er, R; reflexivity).
      destruct (stop_run_told p p0 ns runs ds said k i (run_failed str_exn e) T Ei eq_refl (ex_intro _ _ Er) eq_refl eq_refl) as [U [B V]].
      rewrite P. split; [exact U|split; [reflexivity|]]. exists 0. split; [right; split; [reflexivity|intros H; inversion H; congruence]|]. exact B.
  - (* Redraw *) unfold nstep, ModelNotify.nstep. cbn [np_page np_runs np_drawings np_notes np_said].
    assert (P : step (Redraw c) p = start_draw A trunc c p) by reflexivity. rewrite P.
    assert (S1 : start_draw_notes A trunc str_exn c (start_draw A trunc c p) None ns = start_draw_notes A trunc str_exn c p None ns).
    { unfold start_draw_notes, start_draw. destruct (conf c); [|reflexivity]. destruct (is_empty (get_frame A (p_df p))) eqn:EE; [rewrite EE; reflexivity|].
      destruct (p_graph p) eqn:G; [cbn [p_graph p_df]; rewrite EE, ?G; reflexivity|rewrite EE, G; reflexivity]. }
    rewrite S1. pose proof (start_draw_told c p None ns runs ds said T) as D. assert (W : forall j, None = Some j -> shows ns j false) by discriminate. specialize (D W).
    destruct (start_draw_notes A trunc str_exn c p None ns) as [ns2 ds2]. destruct D as [D1 D2]. split; [exact D1|split; [reflexivity|]].
    destruct (conf c) as [cfg'|e] eqn:C.
    + exists 0. split; [right; split; [reflexivity|intros H; inversion H; congruence]|]. exact D2.
    + exists 1. split; [left; split; [reflexivity|eapply ab_redraw; eassumption]|]. exact D2.
  - (* DrawDone *) unfold nstep, ModelNotify.nstep. cbn [np_page np_runs np_drawings np_notes np_said].
    destruct (nth_error (p_drawings p) k) as [d|] eqn:Ed.
    2:{ assert (P : step (DrawDone k) p = p) by (cbn; rewrite Ed; reflexivity). rewrite P. split; [exact T|split; [reflexivity|]].
        exists 0. split; [right; split; [reflexivity|intros H; inversion H; congruence]|]. unfold balance. cbn. lia. }
    destruct (nth_error ds k) as [[i r]|] eqn:Ei.
    2:{ exfalso. apply nth_error_None in Ei. assert (k < length (p_drawings p)) by (apply nth_error_Some; congruence). lia. }
    assert (P : p_runs (step (DrawDone k) p) = p_runs p /\ p_drawings (step (DrawDone k) p) = remove_nth k (p_drawings p)) by (cbn; rewrite Ed; split; reflexivity).
    destruct P as [P1 P2].
    assert (Si : shows ns i true) by (apply T3, in_or_app; right; apply (in_map fst) in Ei || (apply nth_error_In in Ei; apply (in_map fst) in Ei; exact Ei)).
    destruct (draw d) as [f|e] eqn:R.
    + destruct (draw_done_told p (step (DrawDone k) p) ns runs ds said k i r (set_note i (stopped "Draw Mapper completed." Positive) ns) 0 T Ei (ex_intro _ _ Ed) P1 P2) as [U B].
      * intros j N H. apply shows_set; [congruence|exact H].
      * intros j H. apply shows_set_still; [reflexivity|exact H].
      * destruct Si as [z [Ez Z]]. rewrite (set_note_spins i (stopped "Draw Mapper completed." Positive) z ns Ez Z eq_refl). lia.
      * split; [exact U|split; [reflexivity|]]. exists 0. split; [right; split; [reflexivity|intros H; inversion H; congruence]|]. exact B.
    + assert (W : forall j, r = Some j -> shows ns j false) by (intros j ->; apply nth_error_In in Ei; eauto).
      destruct (draw_done_told p (step (DrawDone k) p) ns runs ds said k i r (tell_run str_exn r e ns) 1 T Ei (ex_intro _ _ Ed) P1 P2) as [U B].
      * intros j N H. apply told_tell; assumption.
      * intros j H. apply told_tell_still; assumption.
      * rewrite tell_spinning by exact W. lia.
      * split; [exact U|split; [reflexivity|]]. exists 1. split; [left; split; [reflexivity|eapply ab_draw_done; [exact Ed|exact R]]|]. exact B.
Qed.

Lemma nsteps_told es : forall q, told q -> told (nsteps es q) /\ np_page (nsteps es q) = steps es (np_page q) /\
  exists n, abandoned (np_page q) es n /\ balance q (nsteps es q) n.
Proof.
  induction es as [|e es IH]; intros q T.
  - split; [exact T|split; [reflexivity|]]. exists 0. split; [constructor|]. unfold balance. cbn. lia.
  - destruct (nstep_told e q T) as [T' [E [n [H B]]]]. destruct (IH _ T') as [T'' [E' [m [H' B']]]].
    split; [exact T''|split; [|]].
    + cbn. unfold nsteps, ModelNotify.nsteps in E'. rewrite E', E. reflexivity.
    + exists (n + m). rewrite E in H'. split.
      * destruct H as [[-> H]|[-> H]]; [apply abd_yes|apply abd_no]; assumption.
      * unfold balance in *. cbn. unfold nsteps, ModelNotify.nsteps in B'. lia.
Qed.

Lemma abandoned_unique es : forall p n m, abandoned p es n -> abandoned p es m -> n = m.
Proof.
  induction es as [|e es IH]; intros p n m H H'.
  - inversion H. inversion H'. reflexivity.
  - inversion H; inversion H'; subst; try contradiction; [f_equal|]; eapply IH; eassumption.
Qed.
Lemma abandoned_app es es' : forall p n, abandoned p (es ++ es') n -> exists a b, n = a + b /\ abandoned p es a /\ abandoned (steps es p) es' b.
Proof.
  induction es as [|e es IH]; intros p n H.
  - exists 0, n. split; [reflexivity|]. split; [constructor|exact H].
  - cbn in H. inversion H; subst.
    + destruct (IH _ _ H5) as [a [b [-> [P Q]]]]. exists (S a), b. split; [reflexivity|]. split; [apply abd_yes; assumption|exact Q].
    + destruct (IH _ _ H5) as [a [b [-> [P Q]]]]. exists a, b. split; [reflexivity|]. split; [apply abd_no; assumption|exact Q].
Qed.
(** *** Every drawing the page starts can be made *)
Section Drawable.
Notation cmaps := ["Viridis"; "Cividis"; "Jet"; "Plasma"; "RdBu"]%string.
Hypothesis scales : forall name, In name cmaps -> exists cs, get_colorscale name = Ok cs.
Hypothesis menu_scales : forall name name', In name cmaps -> plotly_cmap name = Some name' -> exists cs, get_colorscale name' = Ok cs.
Hypothesis laid_out : forall iterations seed dim g,
  length (g_nodes g) <= length (layout_of iterations seed dim g) /\ forall row, In row (layout_of iterations seed dim g) -> dim <= length row.
Hypothesis pca_rows : forall n, row_wise (pca n).
Hypothesis umap_rows : forall n, row_wise (umap n).
Hypothesis scaler_rows : row_wise scaler.
Hypothesis mapper_graphs : forall cover clustering X y g, mapper_fit cover clustering X y = Ok g -> exists opens clust, mapper_graph X opens clust = Ok g.

(** A graph of at most as many points as [y] has rows. *)
Definition covered (g : graph) (y : frame A) : Prop :=
  exists (S : Type) (X : list S) opens clust, mapper_graph X opens clust = Ok g /\ length X <= fr_rows y.

Lemma run_covered df cfg g y : run df cfg = Ok (Some (g, y)) -> covered g y.
Proof.
  intros H. apply run_some in H. destruct H as [cover [clustering [y0 [y' [X' [_ [_ [L [-> [_ [SX Eg]]]]]]]]]]].
  destruct (mapper_graphs _ _ _ _ _ Eg) as [opens [clust Hg]]. exists _, X', opens, clust. split; [exact Hg|].
  set (X := to_numpy A nan (drop A (excluded_columns cfg) df)) in *. assert (E : length X' = length X).
  { unfold scaled in SX. destruct (clustering_scale_data cfg); [apply (scaler_rows _ _ SX)|subst X'; reflexivity]. }
  cbn [lens_frame fr_rows]. rewrite E. destruct L as [[_ ->]|[[_ L]|[[_ L]|[_ L]]]]; [reflexivity| | |].
  - rewrite (proj1 (pca_rows _ _ _ L)). reflexivity.
  - rewrite (proj1 (umap_rows _ _ _ L)). reflexivity.
  - rewrite (proj1 (pca_rows _ _ _ L)). reflexivity.
Qed.

Lemma figure_any labels y df g cfg : is_empty df = false -> covered g y -> plot_dimensions cfg = 2 \/ plot_dimensions cfg = 3 ->
  exists f, create_mapper_figure A missing nan CS get_colorscale plotly_cmap str_num layout_of df y labels g cfg = Ok f.
Proof.
  intros Ne [S [X [opens [clust [Hg LX]]]]] D. destruct (C41_mapper_graphs_drawable S X opens clust g Hg) as [W [Sy [_ At]]].
  destruct (laid_out (plot_iterations cfg) (plot_seed cfg) (plot_dimensions cfg) g) as [L1 L2].
  destruct (C41_positions_total A (layout_of (plot_iterations cfg) (plot_seed cfg)) (fun _ _ => []) g (plot_dimensions cfg) W D L1 L2) as [m Em].
  destruct (C41_positions A _ _ g _ m W D Em) as [Gm [Dm [Pm _]]].
  destruct (scales "Viridis"%string (or_introl eq_refl)) as [cs0 E0].
  assert (Q : exists f0, plot_plotly A CS get_colorscale plotly_cmap str_num m
      (CA2 (figure_colors A nan df y labels)) (NSList (figure_sizes A)) (TList (figure_titles A nan df y labels))
            (nanmean A missing nan) (CMList cmaps) None (Some 800%Z) = Ok f0).
  { assert (Lt : length (figure_titles A nan df y labels) = c_cols (figure_colors A nan df y labels))
      by (unfold figure_titles, figure_colors; cbn [c_cols]; apply map_length).
    apply (C41_plotly_total A CS get_colorscale plotly_cmap str_num m) with (cc := figure_colors A nan df y labels)
      (titles := figure_titles A nan df y labels) (sizes := figure_sizes A) (cmaps := cmaps) (cm0 := "Viridis"%string) (cs0 := cs0).
    all: try rewrite Gm; try rewrite Dm; auto; try reflexivity.
    - cbn [to_titles]. rewrite Lt, Nat.eqb_refl. reflexivity.
    - discriminate.
    - intros row I. unfold figure_colors in *. cbn [c_rows c_cols] in *. unfold to_numpy in I. apply in_map_iff in I. destruct I as [k [<- _]]. apply map_length.
    - unfold figure_colors. cbn [c_cols concat_cols fr_cols map concat]. rewrite !app_length, !map_length. unfold is_empty in Ne. apply orb_false_iff in Ne.
      destruct Ne as [_ Ne]. destruct (fr_cols df); [discriminate|]. cbn. lia.
    - intros z s ids Hz. destruct (At z s ids Hz) as [P1 [P2 P3]]. split; [exact P1|]. split; [exact P2|]. intros j J.
      unfold figure_colors. cbn [c_rows]. rewrite numpy_length. cbn [concat_cols fr_rows map fold_right]. specialize (P3 j J). lia.
    - intros xs _. eexists. reflexivity. }
  destruct Q as [f0 E]. eexists. unfold create_mapper_figure. rewrite Em. cbn [bind]. rewrite E. reflexivity.
Qed.

Record ready (p : page A) : Prop := mkready {
  rd_graph : forall g, p_graph p = Some g -> exists y, p_y p = Some y /\ covered g y;
  rd_drawings : forall d, In d (p_drawings p) -> exists f, draw d = Ok f }.
Lemma ready_new : ready new_page.
Proof. split; cbn; [discriminate|contradiction]. Qed.
Lemma ready_start c p : ready p -> ready (start_draw A trunc c p).
Proof.
  intros R. unfold start_draw. destruct (conf c) as [cfg|] eqn:C; [|exact R]. destruct (is_empty (get_frame A (p_df p))) eqn:E; [exact R|].
  destruct (p_graph p) as [g|] eqn:G; [|exact R]. destruct R as [R1 R2]. split; cbn [p_graph p_y p_drawings]; [rewrite <- G; exact R1|].
  intros d. rewrite in_app_iff. intros [I|[<-|[]]]; [auto|]. destruct (R1 g G) as [y [Ey Cy]]. cbn [d_X d_y d_target d_graph d_config]. rewrite Ey. cbn [get_frame].
  apply figure_any; [exact E|exact Cy|]. unfold get_mapper_config in C. cbv zeta in C. repeat (apply bind_ok in C; destruct C as [? [_ C]]). injection C as <-. cbn.
  destruct (Z.eqb _ 2); [auto|]. destruct (Z.eqb _ 3); auto.
Qed.
Lemma ready_step e p : ready p -> ready (step e p).
Proof.
  intros R. pose proof R as [R1 R2]. destruct e as [d|s|c|k c|c|k].
  - split; cbn; auto.
  - destruct s; split; cbn; auto.
  - cbn. destruct (is_empty _); [exact R|]. destruct (conf c); [|exact R]. split; cbn; auto.
  - cbn. destruct (nth_error (p_runs p) k) as [[df cfg]|]; [|exact R]. destruct (run df cfg) as [[[g y]|]|e] eqn:E; [|split; cbn; auto|split; cbn; auto].
    apply ready_start. split; cbn [p_graph p_y p_drawings]; [|exact R2]. intros g' [= <-]. exists y. split; [reflexivity|]. eapply run_covered. exact E.
  - apply ready_start. exact R.
  - cbn. destruct (nth_error (p_drawings p) k); [|exact R]. split; cbn; auto. intros d' I. apply in_remove_nth in I. auto.
Qed.
Lemma ready_steps es : forall p, ready p -> ready (steps es p).
Proof. induction es as [|e es IH]; intros p R; [exact R|]. cbn. apply IH. apply ready_step. exact R. Qed.
End Drawable.
End Notify.
