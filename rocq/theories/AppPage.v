(** Proofs about runs, figures and the events of the web application. *)
From Coq Require Import String Lia Bool.
From Verif Require Import Base BaseFacts Dict DictFacts ModelArith ModelCore SpecCore ModelDraw ModelPlotly SpecPlot ModelApp SpecApp AppProp.
Open Scope nat_scope.

Section Page.
Variable A : arith.
Variable missing : num A -> bool.
Variable nan : num A.
Variable trunc : num A -> res Z.
Variables pca umap : Z -> matrix A -> res (matrix A).
Variable scaler : matrix A -> res (matrix A).
Variable mapper_fit : cover_spec A -> clust_spec A -> matrix A -> matrix A -> res graph.
Variable CS : Type.
Variable get_colorscale : string -> res CS.
Variable plotly_cmap : string -> option string.
Variable str_num : num A -> string.
Variable layout_of : Z -> Z -> nat -> graph -> list (list (num A)).
Variables digits iris : frame A * frame A.

Notation fixd := (fix_data A missing nan).
Notation run := (run_mapper A nan pca umap scaler mapper_fit).
Notation draw := (create_mapper_figure A missing nan CS get_colorscale plotly_cmap str_num layout_of).
Notation stp := (step A missing nan trunc pca umap scaler mapper_fit CS get_colorscale plotly_cmap str_num layout_of digits iris).
Notation stps := (steps A missing nan trunc pca umap scaler mapper_fit CS get_colorscale plotly_cmap str_num layout_of digits iris).
Notation startd := (start_draw A trunc).

Lemma stps_app es1 es2 p : stps (es1 ++ es2) p = stps es2 (stps es1 p).
Proof. unfold steps. apply fold_left_app. Qed.
Lemma stps_snoc es e p : stps (es ++ [e]) p = stp e (stps es p).
Proof. rewrite stps_app. reflexivity. Qed.

(** *** What changes the data *)
Lemma startd_data c p : p_df (startd c p) = p_df p /\ p_labels (startd c p) = p_labels p /\ p_y (startd c p) = p_y p /\
  p_graph (startd c p) = p_graph p /\ p_runs (startd c p) = p_runs p /\ p_shown (startd c p) = p_shown p.
Proof.
  unfold start_draw. destruct (get_mapper_config A trunc c); [|auto 10]. destruct (is_empty (get_frame A (p_df p))); [auto 10|].
  destruct (p_graph p) eqn:E; cbn; auto 10.
Qed.
Lemma startd_drawings c p d : In d (p_drawings (startd c p)) ->
  In d (p_drawings p) \/ exists cfg g, p_graph p = Some g /\ get_mapper_config A trunc c = Ok cfg /\
    is_empty (get_frame A (p_df p)) = false /\
    d = mkdrawing (get_frame A (p_df p)) (get_frame A (p_y p)) (get_frame A (p_labels p)) g cfg.
Proof.
  unfold start_draw. destruct (get_mapper_config A trunc c) as [cfg|]; [|auto]. destruct (is_empty (get_frame A (p_df p))); [auto|].
  destruct (p_graph p) as [g|] eqn:E; [|auto]. cbn [p_drawings]. intro I. apply in_app_iff in I. destruct I as [I|[<-|[]]]; [auto|].
  right. exists cfg, g. auto.
Qed.

Definition stored (o : option (frame A * frame A)) (p : page A) : Prop :=
  p_df p = option_map (fun d => fixd (fst d)) o /\ p_labels p = option_map (fun d => fixd (snd d)) o.
Lemma step_data e p : match brings digits iris e with
  | Some d => stored (Some d) (stp e p)
  | None => p_df (stp e p) = p_df p /\ p_labels (stp e p) = p_labels p
  end.
Proof.
  destruct e as [d|[| | |]|c|k c|c|k]; cbn [brings step]; try (split; reflexivity).
  - destruct (is_empty _); [auto|]. destruct (get_mapper_config _ _ _); cbn; auto.
  - destruct (nth_error _ k) as [[df cfg]|]; [|auto]. cbn [p_df p_labels p_runs p_drawings p_shown].
    destruct (run df cfg) as [[[g y]|]|]; try (split; reflexivity).
    match goal with |- context[startd c ?p] => destruct (startd_data c p) as [-> [-> _]]; auto end.
  - destruct (startd_data c p) as [-> [-> _]]; auto.
  - destruct (nth_error _ k) as [d|]; auto.
Qed.
Lemma latest_data es o : latest digits iris es o -> stored o (stps es new_page).
Proof.
  induction 1 as [|es e d B|es e o B _ IH]; [split; reflexivity| |]; rewrite stps_snoc; pose proof (step_data e (stps es new_page)) as S; rewrite B in S.
  - exact S.
  - destruct S as [S1 S2]. unfold stored. rewrite S1, S2. exact IH.
Qed.
Lemma latest_ex es : exists o, latest digits iris es o.
Proof.
  induction es as [|e es [o IH]] using rev_ind; [exists None; constructor|]. destruct (brings digits iris e) as [d|] eqn:B.
  - exists (Some d). apply latest_new. exact B.
  - exists o. apply latest_old; assumption.
Qed.
Lemma loads_brings e : loads e <-> brings digits iris e <> None.
Proof. destruct e as [d|[| | |]|c|k c|c|k]; cbn; split; try easy. Qed.

(** *** Every graph comes from one run *)
Notation was_loaded := (SpecApp.was_loaded fixd digits iris).
Notation one_run := (SpecApp.one_run fixd digits iris run).
Definition sound (es : list (event A)) (p : page A) : Prop :=
  (forall df, p_df p = Some df -> was_loaded es df) /\
  (p_graph p = None -> p_y p = None) /\
  (forall g, p_graph p = Some g -> exists y, p_y p = Some y /\ one_run es g y) /\
  (forall df cfg, In (df, cfg) (p_runs p) -> was_loaded es df) /\
  (forall d, In d (p_drawings p) \/ p_shown p = Some d -> was_loaded es (d_X d) /\ one_run es (d_graph d) (d_y d)).

Lemma was_loaded_more es e df : was_loaded es df -> was_loaded (es ++ [e]) df.
Proof. intros [e' [d [I Q]]]. exists e', d. split; [apply in_app_iff; left; exact I|exact Q]. Qed.
Lemma one_run_more es e g y : one_run es g y -> one_run (es ++ [e]) g y.
Proof. intros [df [cfg [W R]]]. exists df, cfg. split; [apply was_loaded_more; exact W|exact R]. Qed.
Lemma sound_more es e p : sound es p -> sound (es ++ [e]) p.
Proof.
  intros [S1 [S2 [S3 [S4 S5]]]]. split; [|split; [|split; [|split]]].
  - intros df E. apply was_loaded_more. auto.
  - exact S2.
  - intros g E. destruct (S3 g E) as [y [Ey O]]. exists y. split; [exact Ey|apply one_run_more; exact O].
  - intros df cfg I. apply was_loaded_more. eauto.
  - intros d I. destruct (S5 d I) as [W O]. split; [apply was_loaded_more; exact W|apply one_run_more; exact O].
Qed.
Lemma is_empty_none o : is_empty (get_frame A o) = false -> o = Some (get_frame A o).
Proof. destruct o; [reflexivity|discriminate]. Qed.
Lemma sound_startd es c p : sound es p -> sound es (startd c p).
Proof.
  intro S. pose proof S as [S1 [S2 [S3 [S4 S5]]]]. destruct (startd_data c p) as [E1 [E2 [E3 [E4 [E5 E6]]]]].
  unfold sound. rewrite E1, E3, E4, E5, E6. split; [exact S1|]. split; [exact S2|]. split; [exact S3|]. split; [exact S4|].
  intros d [I|I]; [|apply S5; auto]. apply startd_drawings in I. destruct I as [I|[cfg [g [Eg [_ [Ne ->]]]]]]; [apply S5; auto|].
  cbn [d_X d_graph d_y]. split; [apply S1, is_empty_none; exact Ne|]. destruct (S3 g Eg) as [y [Ey O]]. rewrite Ey. exact O.
Qed.
Lemma skipn_S_in {T : Type} n : forall (m : list T) x, In x (skipn (S n) m) -> In x (skipn n m).
Proof.
  induction n as [|n IH]; intros [|a m] x I; [destruct I|right; exact I|destruct I|]. cbn [skipn] in *. apply IH. exact I.
Qed.
Lemma remove_nth_in {T : Type} k (l : list T) x : In x (remove_nth k l) -> In x l.
Proof.
  unfold remove_nth. intro I. apply in_app_iff in I. rewrite <- (firstn_skipn k l). apply in_app_iff.
  destruct I as [I|I]; [left; exact I|right; apply skipn_S_in; exact I].
Qed.

Lemma sound_step es e p : sound es p -> sound (es ++ [e]) (stp e p).
Proof.
  intro S. pose proof (sound_more es e p S) as M. pose proof M as [M1 [M2 [M3 [M4 M5]]]].
  assert (N : forall d, brings digits iris e = Some d -> was_loaded (es ++ [e]) (fixd (fst d))).
  { intros d B. exists e, d. split; [apply in_app_iff; right; left; reflexivity|auto]. }
  destruct e as [d|[| | |]|c|k c|c|k]; cbn [step] in *; try exact M.
  1-3: unfold load_example, set_data; split; cbn [p_df p_graph p_y p_runs p_drawings p_shown]; [|auto];
       intros df E; injection E as <-; apply (N _ eq_refl).
  - destruct (is_empty (get_frame A (p_df p))) eqn:Ne; [exact M|]. destruct (get_mapper_config A trunc c) as [cfg|]; [|exact M].
    unfold sound. cbn [p_df p_graph p_y p_runs p_drawings p_shown]. split; [exact M1|]. split; [exact M2|]. split; [exact M3|]. split; [|exact M5].
    intros df cfg' I. apply in_app_iff in I. destruct I as [I|[I|[]]]; [eauto|]. injection I as <- <-. apply M1, is_empty_none. exact Ne.
  - destruct (nth_error (p_runs p) k) as [[df cfg]|] eqn:Ek; [|exact M]. cbn [p_df p_labels p_runs p_drawings p_shown].
    assert (R : forall df cfg, In (df, cfg) (remove_nth k (p_runs p)) -> was_loaded (es ++ [RunDone k c]) df).
    { intros df' cfg' I. apply remove_nth_in in I. eauto. }
    destruct (run df cfg) as [[[g y]|]|] eqn:Er.
    + apply sound_startd. unfold sound. cbn [p_df p_graph p_y p_runs p_drawings p_shown]. split; [exact M1|]. split; [discriminate|].
      split; [|split; [exact R|exact M5]]. intros g' E. injection E as <-. exists y. split; [reflexivity|]. exists df, cfg.
      split; [|exact Er]. apply nth_error_In in Ek. eauto.
    + unfold sound. cbn [p_df p_graph p_y p_runs p_drawings p_shown]. auto.
    + unfold sound. cbn [p_df p_graph p_y p_runs p_drawings p_shown]. auto.
  - apply sound_startd. exact M.
  - destruct (nth_error (p_drawings p) k) as [d|] eqn:Ek; [|exact M]. unfold sound. cbn [p_df p_graph p_y p_runs p_drawings p_shown].
    split; [exact M1|]. split; [exact M2|]. split; [exact M3|]. split; [exact M4|].
    intros d' [I|I]; [apply M5; left; apply remove_nth_in in I; exact I|].
    destruct (draw (d_X d) (d_y d) (d_target d) (d_graph d) (d_config d)); [|apply M5; auto]. injection I as <-.
    apply M5. left. apply nth_error_In in Ek. exact Ek.
Qed.
Lemma sound_steps es : sound es (stps es new_page).
Proof.
  induction es as [|e es IH] using rev_ind.
  - unfold sound, steps. cbn. split; [discriminate|]. split; [reflexivity|]. split; [discriminate|]. split; [contradiction|].
    intros d [[]|K]; discriminate.
  - rewrite stps_snoc. apply sound_step. exact IH.
Qed.

(** *** Nothing pending when data is loaded *)
Notation current := (SpecApp.current run).
(** [ready]: a run on the data has ended well. *)
Definition fresh (df labels : frame A) (old : option (drawing A)) (ready : bool) (p : page A) : Prop :=
  p_df p = Some df /\ p_labels p = Some labels /\
  (forall df' cfg, In (df', cfg) (p_runs p) -> df' = df) /\
  (forall d, In d (p_drawings p) -> current df labels d) /\
  (p_shown p = old \/ exists d, p_shown p = Some d /\ current df labels d) /\
  (ready = true -> exists g y cfg, p_graph p = Some g /\ p_y p = Some y /\ run df cfg = Ok (Some (g, y))).

Lemma fresh_startd df labels old c p : fresh df labels old true p -> fresh df labels old true (startd c p).
Proof.
  intros [F1 [F2 [F3 [F4 [F5 F6]]]]]. destruct (startd_data c p) as [E1 [E2 [E3 [E4 [E5 E6]]]]].
  unfold fresh. rewrite E1, E2, E3, E4, E5, E6. split; [exact F1|]. split; [exact F2|]. split; [exact F3|]. split; [|split; assumption].
  intros d I. apply startd_drawings in I. destruct I as [I|[cfg [g [Eg [_ [_ ->]]]]]]; [auto|].
  destruct (F6 eq_refl) as [g' [y [cfg' [Eg' [Ey R]]]]]. rewrite F1, F2, Ey. cbn [get_frame]. unfold current. cbn.
  split; [reflexivity|]. split; [reflexivity|]. exists cfg'. cbn. congruence.
Qed.
Lemma fresh_step df labels old ready e p : ~ loads e -> (ready = false -> ~ redraws e) ->
  fresh df labels old ready p -> fresh df labels old ready (stp e p).
Proof.
  intros L R F. pose proof F as [F1 [F2 [F3 [F4 [F5 F6]]]]].
  destruct e as [d|[| | |]|c|k c|c|k]; cbn [step] in *; try exact F; try (exfalso; apply L; exact I).
  - destruct (is_empty (get_frame A (p_df p))) eqn:Ne; [exact F|]. destruct (get_mapper_config A trunc c) as [cfg|]; [|exact F].
    unfold fresh. cbn [p_df p_labels p_graph p_y p_runs p_drawings p_shown]. split; [exact F1|]. split; [exact F2|]. split; [|auto].
    intros df' cfg' I. apply in_app_iff in I. destruct I as [I|[I|[]]]; [eauto|]. injection I as <- <-. rewrite F1. reflexivity.
  - destruct (nth_error (p_runs p) k) as [[df' cfg]|] eqn:Ek; [|exact F]. cbn [p_df p_labels p_runs p_drawings p_shown].
    assert (Q : forall df'' cfg', In (df'', cfg') (remove_nth k (p_runs p)) -> df'' = df).
    { intros df'' cfg' I. apply remove_nth_in in I. eauto. }
    assert (df' = df) by (apply nth_error_In in Ek; eauto). subst df'.
    destruct (run df cfg) as [[[g y]|]|] eqn:Er.
    + assert (W : fresh df labels old true (startd c (mkpage (p_df p) (p_labels p) (Some y) (Some g) (remove_nth k (p_runs p)) (p_drawings p) (p_shown p)))).
      { apply fresh_startd. unfold fresh. cbn. repeat (split; [assumption|]). intros _. exists g, y, cfg. auto. }
      destruct W as [W1 [W2 [W3 [W4 [W5 W6]]]]]. unfold fresh. repeat (split; [assumption|]). auto.
    + unfold fresh. cbn. auto 10.
    + unfold fresh. cbn. auto 10.
  - destruct ready; [apply fresh_startd; exact F|]. exfalso. exact (R eq_refl I).
  - destruct (nth_error (p_drawings p) k) as [d|] eqn:Ek; [|exact F]. unfold fresh. cbn [p_df p_labels p_graph p_y p_runs p_drawings p_shown].
    split; [exact F1|]. split; [exact F2|]. split; [exact F3|]. split; [|split; [|exact F6]].
    + intros d' I. apply remove_nth_in in I. auto.
    + destruct (draw (d_X d) (d_y d) (d_target d) (d_graph d) (d_config d)); [|exact F5]. right. exists d. split; [reflexivity|].
      apply F4. apply nth_error_In in Ek. exact Ek.
Qed.
Lemma fresh_steps df labels old ready es : (forall e, In e es -> ~ loads e /\ (ready = false -> ~ redraws e)) ->
  forall p, fresh df labels old ready p -> fresh df labels old ready (stps es p).
Proof.
  induction es as [|e es IH]; intros Q p F; [exact F|]. change (stps (e :: es) p) with (stps es (stp e p)). apply IH.
  - intros e' I. apply Q. right. exact I.
  - destruct (Q e (or_introl eq_refl)) as [Q1 Q2]. apply fresh_step; assumption.
Qed.
Lemma fresh_load e d p : brings digits iris e = Some d -> p_runs p = [] -> p_drawings p = [] ->
  fresh (fixd (fst d)) (fixd (snd d)) (p_shown p) false (stp e p).
Proof.
  intros B E1 E2. destruct e as [d'|[| | |]|c|k c|c|k]; try discriminate; injection B as <-;
    unfold fresh; cbn; rewrite E1, E2; (split; [reflexivity|]); (split; [reflexivity|]); (split; [contradiction|]);
    (split; [contradiction|]); split; auto; discriminate.
Qed.
Lemma fresh_done df labels old k c cfg g y p : fresh df labels old false p ->
  nth_error (p_runs p) k = Some (df, cfg) -> run df cfg = Ok (Some (g, y)) -> fresh df labels old true (stp (RunDone k c) p).
Proof.
  intros [F1 [F2 [F3 [F4 [F5 F6]]]]] Ek Er. cbn [step]. rewrite Ek. cbn [p_df p_labels p_runs p_drawings p_shown]. rewrite Er.
  apply fresh_startd. unfold fresh. cbn. split; [exact F1|]. split; [exact F2|]. split; [|split; [exact F4|split; [exact F5|]]].
  - intros df'' cfg' I. apply remove_nth_in in I. eauto.
  - intros _. exists g, y, cfg. auto.
Qed.

(** *** Loading, running and drawing *)
Lemma page_shows e d c cfg g y f p : brings digits iris e = Some d -> p_runs p = [] -> p_drawings p = [] ->
  is_empty (fixd (fst d)) = false -> get_mapper_config A trunc c = Ok cfg -> run (fixd (fst d)) cfg = Ok (Some (g, y)) ->
  draw (fixd (fst d)) y (fixd (snd d)) g cfg = Ok f ->
  let p' := stps [e; Run c; RunDone 0 c; DrawDone 0] p in
  p_shown p' = Some (mkdrawing (fixd (fst d)) y (fixd (snd d)) g cfg) /\ p_runs p' = [] /\ p_drawings p' = [] /\
  p_graph p' = Some g /\ p_y p' = Some y /\ stored (Some d) p'.
Proof.
  intros B E1 E2 Ne Ec Er Ed. cbv zeta.
  assert (Q : exists y0 g0 sh, stp e p = mkpage (Some (fixd (fst d))) (Some (fixd (snd d))) y0 g0 [] [] sh).
  { destruct e as [d'|[| | |]|c'|k c'|c'|k]; try discriminate; injection B as <-; cbn; unfold load_example, set_data; rewrite E1, E2; eauto. }
  destruct Q as [y0 [g0 [sh Q]]]. unfold steps. cbn [fold_left]. rewrite Q. cbn [step p_df get_frame]. rewrite Ne, Ec.
  cbn [app nth_error p_runs p_df p_labels p_y p_graph p_drawings p_shown remove_nth firstn skipn]. rewrite Er.
  unfold start_draw. cbn [app nth_error p_runs p_df p_labels p_y p_graph p_drawings p_shown get_frame]. rewrite Ec, Ne.
  cbn [app nth_error p_runs p_df p_labels p_y p_graph p_drawings p_shown remove_nth firstn skipn d_X d_y d_target d_graph d_config]. rewrite Ed.
  unfold stored. cbn. auto 10.
Qed.
End Page.

Lemma fix_data_full (A : arith) missing nan (d : frame A) : NoDup (map fst (fr_cols d)) ->
  (forall name l, In (name, CNum l) (fr_cols d) -> length l = fr_rows d) -> full_frame (fix_data A missing nan d).
Proof.
  intros N L. rewrite (fix_data_closed A missing nan d N). intros name c I. cbn [fr_cols fr_rows] in *. apply in_map_iff in I.
  destruct I as [[name' c'] [E I]]. injection E as <- <-. unfold kept in I. apply filter_In in I. destruct I as [I _]. apply filter_In in I.
  destruct I as [I Nm]. destruct c' as [l|]; [|discriminate]. cbn [snd fill]. eexists. split; [reflexivity|]. rewrite map_length. apply (L name'). exact I.
Qed.
