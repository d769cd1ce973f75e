(** Properties of the notifications of the web application (src/tdamapper/app.py), C60. *)
From Coq Require Import String Lia QArith.
From Verif Require Import Base BaseFacts ModelArith ModelCore SpecCore ModelDraw ModelPlotly SpecPlot.
From Verif Require Import ModelApp SpecApp AppProp AppRun AppPage PropPlot PropApp ModelNotify SpecNotify NotifyProp.
Open Scope nat_scope.

Section Notify.
Variable A : arith.
Notation num := (num A).
Variable missing : num -> bool.
Variable nan : num.
Variable trunc : num -> res Z.
Variables pca umap : Z -> matrix A -> res (matrix A).
Variable scaler : matrix A -> res (matrix A).
Variable mapper_fit : cover_spec A -> clust_spec A -> matrix A -> matrix A -> res graph.
Variable CS : Type.
Variable get_colorscale : string -> res CS.
Variable plotly_cmap : string -> option string.
Variable str_num : num -> string.
Variable layout_of : Z -> Z -> nat -> graph -> list (list num).
Variables digits iris : frame A * frame A.
Variable str_exn : exn -> string.
Notation step := (step A missing nan trunc pca umap scaler mapper_fit CS get_colorscale plotly_cmap str_num layout_of digits iris).
Notation steps := (steps A missing nan trunc pca umap scaler mapper_fit CS get_colorscale plotly_cmap str_num layout_of digits iris).
Notation nstep := (nstep A missing nan trunc pca umap scaler mapper_fit CS get_colorscale plotly_cmap str_num layout_of digits iris str_exn).
Notation nsteps := (nsteps A missing nan trunc pca umap scaler mapper_fit CS get_colorscale plotly_cmap str_num layout_of digits iris str_exn).
Notation conf := (get_mapper_config A trunc).
Notation run := (run_mapper A nan pca umap scaler mapper_fit).
Notation draw := (fun d => create_mapper_figure A missing nan CS get_colorscale plotly_cmap str_num layout_of (d_X d) (d_y d) (d_target d) (d_graph d) (d_config d)).
Notation abandons := (abandons A (figure A CS) conf run draw).
Notation abandoned := (abandoned A (figure A CS) conf run draw step).
Notation told es := (nsteps es (new_npage A)).
Notation after es := (steps es new_page).

(** ** C60: the notifications change nothing else: the page is that of C44-C51. *)
Theorem C60_page : forall es, np_page (told es) = after es.
Proof.
  intros es. destruct (nsteps_told A missing nan trunc pca umap scaler mapper_fit CS get_colorscale plotly_cmap str_num layout_of digits iris str_exn es _ (told_new A)) as [_ [E _]]. exact E.
Qed.

(** ** C60: after any history, the notifications with a spinner are as many as the runs and
    drawings being computed, and one for each abandoned event. *)
Theorem C60_spinners :
  forall es, exists n, abandoned new_page es n /\
  spinning (np_notes (told es)) = length (p_runs (after es)) + length (p_drawings (after es)) + n.
Proof.
  intros es. destruct (nsteps_told A missing nan trunc pca umap scaler mapper_fit CS get_colorscale plotly_cmap str_num layout_of digits iris str_exn es _ (told_new A))
    as [_ [E [n [H B]]]]. exists n. split; [exact H|]. unfold balance in B. rewrite E in B. cbn in B. lia.
Qed.

(** ** C60: a page where nothing was abandoned shows no spinner once nothing is computed. *)
Theorem C60_all_stop :
  forall es, (forall a e b, es = a ++ e :: b -> ~ abandons e (after a)) ->
  p_runs (after es) = [] -> p_drawings (after es) = [] -> forall x, In x (np_notes (told es)) -> n_spinner x = false.
Proof.
  intros es N R D. destruct (C60_spinners es) as [n [H E]]. assert (n = 0).
  { clear - H N. revert H N. generalize (@new_page A) as p. intros p. revert p n. induction es as [|e es IH]; intros p n H N.
    - inversion H. reflexivity.
    - inversion H; subst.
      + exfalso. apply (N [] e es eq_refl). assumption.
      + apply (IH _ _ H5). intros a e' b ->. apply (N (e :: a) e' b eq_refl). }
  subst n. rewrite R, D in E. cbn in E. intros x I. destruct (n_spinner x) eqn:S; [|reflexivity]. exfalso.
  assert (J : In x (filter n_spinner (np_notes (told es)))) by (apply filter_In; auto). unfold spinning in E. destruct (filter n_spinner (np_notes (told es))); [contradiction|discriminate].
Qed.

(** ** C60: after an abandoned event some spinner is shown for ever: whatever happens next,
    one more than the computations going on. *)
Theorem C60_forever :
  forall es e es', abandons e (after es) -> let all := es ++ e :: es' in
  length (p_runs (after all)) + length (p_drawings (after all)) < spinning (np_notes (told all)).
Proof.
  intros es e es' H all. destruct (C60_spinners all) as [n [K E]]. unfold all in K.
  destruct (abandoned_app A missing nan trunc pca umap scaler mapper_fit CS get_colorscale plotly_cmap str_num layout_of digits iris es (e :: es') new_page n K) as [a [b [-> [_ Q]]]].
  inversion Q; subst; [lia|contradiction].
Qed.

(** ** C60: so with third parties as in C50, no spinner is left once nothing is computed, if
    the controls could be read each time; whatever was loaded, in any order of the events. *)
Theorem C60_no_spinner_left :
  third_parties A pca umap scaler mapper_fit CS get_colorscale plotly_cmap layout_of ->
  forall es, (forall c, In (Run c) es \/ In (Redraw c) es \/ (exists k, In (RunDone k c) es) -> exists cfg, conf c = Ok cfg) ->
  p_runs (after es) = [] -> p_drawings (after es) = [] -> forall x, In x (np_notes (told es)) -> n_spinner x = false.
Proof.
  intros [Wp [Wu [Ws [Mg [Lo [Sc Ms]]]]]] es U. apply C60_all_stop. intros a e b E H. assert (I : In e es) by (rewrite E; apply in_or_app; right; left; reflexivity).
  assert (N : forall c x, In (Run c) es \/ In (Redraw c) es \/ (exists k, In (RunDone k c) es) -> conf c = Err x -> False).
  { intros c x J C. destruct (U c J) as [cfg K]. congruence. }
  inversion H as [c p x D C|c p x C|k c p df cfg gy x D R C|k p d x D R]; subst e p.
  - eapply N; [left; exact I|exact C].
  - eapply N; [right; left; exact I|exact C].
  - eapply N; [right; right; exists k; exact I|exact C].
  - destruct (ready_steps A missing nan trunc pca umap scaler mapper_fit CS get_colorscale plotly_cmap str_num layout_of digits iris Sc Ms Lo Wp Wu Ws Mg a new_page) as [_ R2].
    { apply ready_new. }
    destruct (R2 d (nth_error_In _ _ D)) as [f Ef]. rewrite Ef in R. discriminate.
Qed.

(** ** C60: when a run comes back its own notification, until then with a spinner, tells how
    it went, if the controls can be read; the others keep what they tell. *)
Theorem C60_run_reported :
  forall es k c df cfg cfg', nth_error (p_runs (after es)) k = Some (df, cfg) -> conf c = Ok cfg' ->
  exists i x y, nth_error (np_notes (told es)) i = Some x /\ n_spinner x = true /\
    nth_error (np_notes (told (es ++ [RunDone k c]))) i = Some y /\ tells_run str_exn (run df cfg) y /\
    forall j z, j <> i -> nth_error (np_notes (told es)) j = Some z -> nth_error (np_notes (told (es ++ [RunDone k c]))) j = Some z.
Proof.
  intros es k c df cfg cfg' Er Ec.
  destruct (nsteps_told A missing nan trunc pca umap scaler mapper_fit CS get_colorscale plotly_cmap str_num layout_of digits iris str_exn es _ (told_new A)) as [T [E _]].
  unfold nsteps, ModelNotify.nsteps. rewrite fold_left_app. cbn [fold_left]. fold (nsteps es (new_npage A)).
  change (np_page (told es) = after es) in E. revert T E. generalize (told es) as q. intros q [T1 T2 T3 T4 T5] E. rewrite <- E in Er.
  destruct (nth_error (np_runs q) k) as [i|] eqn:Ei.
  2:{ exfalso. apply nth_error_None in Ei. assert (k < length (p_runs (np_page q))) by (apply nth_error_Some; congruence). lia. }
  destruct (T3 i) as [x [Ex Sx]]; [apply in_or_app; left; eapply nth_error_In; exact Ei|]. assert (Li : i < length (np_notes q)) by (apply nth_error_Some; congruence).
  exists i, x. unfold nstep, ModelNotify.nstep. rewrite Er, Ei. destruct (run df cfg) as [[[g y]|]|e] eqn:R.
  - set (ns1 := set_note i _ (np_notes q)). assert (L1 : length ns1 = length (np_notes q)) by apply set_note_length.
    assert (Q : exists more, fst (start_draw_notes A trunc str_exn c (step (RunDone k c) (np_page q)) (Some i) ns1) = ns1 ++ more).
    { unfold start_draw_notes. rewrite Ec. destruct (is_empty _); [|destruct (p_graph _)]; eexists; reflexivity. }
    destruct Q as [more Q]. destruct (start_draw_notes A trunc str_exn c (step (RunDone k c) (np_page q)) (Some i) ns1) as [ns2 ds2]. cbn in Q. subst ns2. cbn [np_notes].
    eexists. split; [exact Ex|]. split; [exact Sx|]. split; [|split; [apply tr_ok|]].
    + rewrite nth_error_app1 by lia. apply set_note_same. exact Li.
    + intros j z N Ez. assert (j < length (np_notes q)) by (apply nth_error_Some; congruence). rewrite nth_error_app1 by lia. unfold ns1. rewrite set_note_other by congruence. exact Ez.
  - cbn [np_notes]. eexists. split; [exact Ex|]. split; [exact Sx|]. split; [apply set_note_same; exact Li|]. split; [apply tr_none|].
    intros j z N Ez. rewrite set_note_other by congruence. exact Ez.
  - cbn [np_notes]. eexists. split; [exact Ex|]. split; [exact Sx|]. split; [apply set_note_same; exact Li|]. split; [apply tr_err|].
    intros j z N Ez. rewrite set_note_other by congruence. exact Ez.
Qed.

(** ** C60: when a drawing comes back with a figure its own notification says so. *)
Theorem C60_draw_reported :
  forall es k d f, nth_error (p_drawings (after es)) k = Some d -> draw d = Ok f ->
  exists i x, nth_error (np_notes (told es)) i = Some x /\ n_spinner x = true /\
    nth_error (np_notes (told (es ++ [DrawDone k]))) i = Some (mknote "Draw Mapper completed." Positive false) /\
    p_shown (after (es ++ [DrawDone k])) = Some d /\
    forall j z, j <> i -> nth_error (np_notes (told es)) j = Some z -> nth_error (np_notes (told (es ++ [DrawDone k]))) j = Some z.
Proof.
  intros es k d f Ed Ef.
  destruct (nsteps_told A missing nan trunc pca umap scaler mapper_fit CS get_colorscale plotly_cmap str_num layout_of digits iris str_exn es _ (told_new A)) as [T [E _]].
  unfold nsteps, ModelNotify.nsteps, steps, ModelApp.steps. rewrite !fold_left_app. cbn [fold_left]. fold (nsteps es (new_npage A)). fold (after es).
  change (np_page (told es) = after es) in E. rewrite <- E in Ed. rewrite <- E. clear E. revert T Ed. generalize (told es) as q. intros q [T1 T2 T3 T4 T5] Ed.
  destruct (nth_error (np_drawings q) k) as [[i r]|] eqn:Ei.
  2:{ exfalso. apply nth_error_None in Ei. assert (k < length (p_drawings (np_page q))) by (apply nth_error_Some; congruence). lia. }
  destruct (T3 i) as [x [Ex Sx]]; [apply in_or_app; right; apply nth_error_In in Ei; apply (in_map fst) in Ei; exact Ei|].
  assert (Li : i < length (np_notes q)) by (apply nth_error_Some; congruence).
  exists i, x. split; [exact Ex|]. split; [exact Sx|]. unfold nstep, ModelNotify.nstep. rewrite Ed, Ei. cbv beta in Ef. rewrite Ef. cbn [np_notes]. split; [apply set_note_same; exact Li|].
  split.
  - cbn. rewrite Ed, Ef. reflexivity.
  - intros j z N Ez. rewrite set_note_other by congruence. exact Ez.
Qed.
End Notify.
Print Assumptions C60_page.
Print Assumptions C60_spinners.
Print Assumptions C60_all_stop.
Print Assumptions C60_no_spinner_left.
Print Assumptions C60_forever.
Print Assumptions C60_run_reported.
Print Assumptions C60_draw_reported.

(** *** The page of PropApp with its notifications *)
Definition demo_exn (e : exn) : string := match e with IndexError => "index out of range" | TypeError => "not a number" | _ => "error" end.
Definition demo_told (es : list (event QA)) : npage QA :=
  nsteps QA demo_missing (0%Q : num QA) demo_trunc demo_lens demo_lens demo_scaler demo_fit string (fun s => Ok s) (fun s => Some s)
    demo_str demo_layout demo_digits demo_iris demo_exn es (new_npage QA).
Definition demo_figure (d : drawing QA) : res (figure QA string) :=
  create_mapper_figure QA demo_missing (0%Q : num QA) string (fun s => Ok s) (fun s => Some s) demo_str demo_layout (d_X d) (d_y d) (d_target d) (d_graph d) (d_config d).
Definition demo_abandons : event QA -> page QA -> Prop :=
  abandons QA (figure QA string) (get_mapper_config QA demo_trunc) demo_run demo_figure.
(** A session: run and redraw before loading, load, run and draw. *)
Definition demo_good : list (event QA) := [Run demo_controls; Redraw demo_controls; Load SIris; Run demo_controls; RunDone 0 demo_controls; DrawDone 0].
Example C60_session_example :
  np_notes (demo_told demo_good) =
    [mknote "Run Mapper failed: no data found, please load data first." Warning false;
     mknote "Draw Mapper failed: no Mapper graph found, please run Mapper first." Warning false;
     mknote "Run Mapper completed." Positive false; mknote "Draw Mapper completed." Positive false]%string /\
  np_said (demo_told demo_good) = [("Load data completed."%string, Positive)] /\
  np_notes (demo_told (firstn 4 demo_good)) = firstn 2 (np_notes (demo_told demo_good)) ++ [mknote "Running Mapper..." Ongoing true] /\
  np_notes (demo_told (firstn 5 demo_good)) = firstn 3 (np_notes (demo_told demo_good)) ++ [mknote "Drawing Mapper..." Ongoing true].
Proof. split; [vm_eq|]. split; [vm_eq|]. split; vm_eq. Qed.
(** It meets the hypotheses of [C60_all_stop]. *)
Lemma demo_usable e : get_mapper_config QA demo_trunc demo_controls = Err e -> False.
Proof. rewrite demo_config. discriminate. Qed.
Lemma demo_good_last a k b : demo_good = a ++ DrawDone k :: b -> a = firstn 5 demo_good /\ k = 0.
Proof.
  unfold demo_good. intros E. do 5 (destruct a as [|? a]; [discriminate E|injection E as ? E]).
  destruct a as [|? a]; [injection E as <- _; subst; split; reflexivity|]. injection E as _ E. destruct a; discriminate.
Qed.
Example C60_all_stop_example :
  (forall a e b, demo_good = a ++ e :: b -> ~ demo_abandons e (demo_steps a new_page)) /\
  p_runs (demo_steps demo_good new_page) = [] /\ p_drawings (demo_steps demo_good new_page) = [].
Proof.
  split; [|split; vm_eq]. intros a e b E H. assert (I : In e demo_good) by (rewrite E; apply in_or_app; right; left; reflexivity).
  inversion H as [c p x D C|c p x C|k c p df cfg gy x D R C|k p d x D R]; subst.
  - cbn in I. intuition (try discriminate); match goal with K : Run _ = Run _ |- _ => injection K as <- end; exact (demo_usable _ C).
  - cbn in I. intuition (try discriminate); match goal with K : Redraw _ = Redraw _ |- _ => injection K as <- end; exact (demo_usable _ C).
  - cbn in I. intuition (try discriminate); match goal with K : RunDone _ _ = RunDone _ _ |- _ => injection K as <- <- end; exact (demo_usable _ C).
  - destruct (demo_good_last a k b E) as [-> ->].
    assert (Q : option_map (fun d => is_ok (demo_figure d)) (nth_error (p_drawings (demo_steps (firstn 5 demo_good) new_page)) 0) = Some true) by vm_eq.
    rewrite D in Q. cbn [option_map] in Q. rewrite R in Q. discriminate.
Qed.

(** Data loaded in between, an old graph redrawn with it, two runs coming back in the other
    order: the hypotheses of [C60_no_spinner_left] are met. *)
Definition demo_busy : list (event QA) :=
  [Load SDigits; Run demo_controls; Run demo_controls; RunDone 1 demo_controls; Load SIris; RunDone 0 demo_controls; Redraw demo_controls; DrawDone 2; DrawDone 0; DrawDone 0].
Example C60_no_spinner_left_example :
  (forall c, In (Run c) demo_busy \/ In (Redraw c) demo_busy \/ (exists k, In (RunDone k c) demo_busy) -> get_mapper_config QA demo_trunc c = Ok demo_cfg) /\
  p_runs (demo_steps demo_busy new_page) = [] /\ p_drawings (demo_steps demo_busy new_page) = [] /\
  map n_message (np_notes (demo_told (firstn 7 demo_busy))) =
    ["Run Mapper completed."; "Run Mapper completed."; "Drawing Mapper..."; "Drawing Mapper..."; "Drawing Mapper..."]%string /\
  map n_message (np_notes (demo_told (firstn 8 demo_busy))) =
    ["Run Mapper completed."; "Run Mapper completed."; "Drawing Mapper..."; "Drawing Mapper..."; "Draw Mapper completed."]%string.
Proof.
  split; [|split; [vm_eq|split; [vm_eq|split; vm_eq]]]. intros c H. assert (c = demo_controls) as ->; [|exact demo_config].
  destruct H as [I|[I|[k I]]]; cbn in I; intuition congruence.
Qed.

(** The controls after the field of the dimensions is cleared. *)
Definition demo_cleared : controls QA :=
  mkcontrols (A := QA) (Some ["width"%string]) (Some "PCA"%string) false (Some "KNN Cover"%string) false (Some "KMeans"%string)
    (Some 1%Q) (Some 2%Q) (Some 10%Q) (Some (1 # 4)%Q) (Some 100%Q) (Some 10%Q) (Some 2%Q) (Some (1 # 2)%Q) (Some 5%Q) (Some 2%Q) None (Some 100%Q) (Some 7%Q).
(** ** C60 fails: running with a cleared field shows a spinner for ever, though nothing runs. *)
Theorem C60_cleared_refuted :
  exists es, p_runs (demo_steps es new_page) = [] /\ p_drawings (demo_steps es new_page) = [] /\
    np_notes (demo_told es) = [mknote "Running Mapper..." Ongoing true] /\
    forall es', 0 < spinning (np_notes (demo_told (es ++ es'))).
Proof.
  exists [Load SIris; Run demo_cleared]. split; [vm_eq|]. split; [vm_eq|]. split; [vm_eq|]. intros es'.
  assert (C : exists e, get_mapper_config QA demo_trunc demo_cleared = Err e) by (exists TypeError; vm_eq). destruct C as [e C].
  pose proof (C60_forever QA demo_missing (0%Q : num QA) demo_trunc demo_lens demo_lens demo_scaler demo_fit string (fun s => Ok s) (fun s => Some s)
    demo_str demo_layout demo_digits demo_iris demo_exn [Load SIris] (Run demo_cleared) es') as H.
  cbv zeta in H. unfold demo_told. eapply Nat.le_lt_trans; [|apply H]; [lia|]. eapply ab_run; [vm_eq|exact C].
Qed.
Print Assumptions C60_cleared_refuted.

(** ** C60 fails: a run is reported as failed though its graph is stored, when the drawing
    after it fails. *)
Theorem C60_misreported_refuted :
  exists es df, demo_run df demo_cfg = Ok (Some (demo_result df)) /\
    In (df, demo_cfg) (p_runs (demo_steps es new_page)) /\
    let es' := es ++ [RunDone 0 demo_cleared] in
    p_graph (demo_steps es' new_page) = Some (fst (demo_result df)) /\
    In (mknote "Run Mapper failed: not a number" Error false) (np_notes (demo_told es')).
Proof.
  exists [Load SIris; Run demo_controls], (demo_fix (fst demo_iris)). split; [exact demo_iris_run|]. split; [left; vm_eq|]. cbv zeta. split; [vm_eq|].
  assert (E : nth_error (np_notes (demo_told ([Load SIris; Run demo_controls] ++ [RunDone 0 demo_cleared]))) 0 = Some (mknote "Run Mapper failed: not a number" Error false)) by vm_eq.
  apply nth_error_In in E. exact E.
Qed.
Print Assumptions C60_misreported_refuted.
