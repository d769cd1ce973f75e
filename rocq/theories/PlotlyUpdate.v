(** Updates of plotly figures and the controls. *)
From Coq Require Import String.
From Verif Require Import Base BaseFacts Dict DictFacts ModelArith ModelCore SpecCore CoreLabels CoreGraph CoreProp UnionFindProp.
From Verif Require Import ModelDraw ModelPlotly SpecPlot DrawFacts PlotlyFacts PlotlyProp PlotlyShow.
Open Scope nat_scope.

Lemma attr_absent {A CS} (t : attrs A CS) path : ~ In path (map fst t) -> attr t path = ANone.
Proof.
  intro H. unfold attr. rewrite (proj2 (dget_none _ string_eqb_decides t path)); [reflexivity|exact H].
Qed.
Lemma same_reads {A CS} (t t' : attrs A CS) :
  (forall k, In k (map fst t ++ map fst t') -> attr t k = attr t' k) -> forall path, attr t path = attr t' path.
Proof.
  intros H path. destruct (in_dec string_dec path (map fst t ++ map fst t')) as [I|I]; [exact (H path I)|].
  rewrite in_app_iff in I. rewrite (attr_absent t), (attr_absent t') by tauto. reflexivity.
Qed.
Ltac reads := apply same_reads; let k := fresh "k" in let I := fresh "I" in intros k I; vm_compute in I;
  repeat (destruct I as [<-|I]; [reflexivity|]); destruct I.

Section Update.
Variable A : arith.
Variable CS : Type.
Variable get_colorscale : string -> res CS.
Variable plotly_cmap : string -> option string.
Variable str_num : num A -> string.
Variable m : mapper_plot A.
Notation g := (mp_graph m).
Notation dim := (mp_dim m).
Notation figure := (figure A CS).
Notation attrs := (attrs A CS).
Notation plot := (plot A CS get_colorscale plotly_cmap str_num m).
Notation plot_plotly := (plot_plotly A CS get_colorscale plotly_cmap str_num m).
Notation plot_plotly_update := (plot_plotly_update A CS get_colorscale plotly_cmap str_num m).
Notation settings_of := (settings_of A CS get_colorscale m).
Notation update_figure := (update_figure A CS get_colorscale m).
Notation set_ui := (set_ui A CS get_colorscale plotly_cmap str_num m).

(** Both traces as explicit lists. *)
Lemma traces_explicit e n : new_figure A CS m = Ok (mkfig [e; n] (layout A CS) [] []) ->
  exists x y ex ey sz z ez, edges_trace A CS m [ex; ey; ez] = Ok e /\ nodes_trace A CS m [x; y; z] = Ok n /\ marker_size A m = Ok sz.
Proof.
  intro H. apply new_traces in H. destruct H as [na [ea [x [y [ex [ey [sz [P1 [P2 [P3 [P4 [P5 [P6 [P7 D]]]]]]]]]]]]]].
  destruct D as [[D [D1 D2]]|[D [D1 [D2 [z [ez [Z1 Z2]]]]]]].
  - exists x, y, ex, ey, sz, [], []. revert D1 D2. unfold edges_trace, nodes_trace, rd. rewrite P4, P5, P6, P7.
    destruct (Nat.eqb_spec dim 3); [contradiction|]. intros D1 D2. repeat split; assumption.
  - exists x, y, ex, ey, sz, z, ez. revert D1 D2. unfold edges_trace, nodes_trace, rd. rewrite P4, P5, P6, P7, Z1, Z2.
    intros D1 D2. repeat split; assumption.
Qed.

Lemma repatch e n st st' : new_figure A CS m = Ok (mkfig [e; n] (layout A CS) [] []) ->
  edge_patches A CS m st' (edge_patches A CS m st e) = edge_patches A CS m st' e /\
  node_patches A CS st' (node_patches A CS st n) = node_patches A CS st' n.
Proof.
  intro H. apply traces_explicit in H. destruct H as [x [y [ex [ey [sz [z [ez [H1 [H2 H3]]]]]]]]].
  unfold edges_trace in H1. unfold nodes_trace in H2. rewrite H3 in H2. cbn [rd nth_error bind] in H1, H2.
  unfold edge_patches. destruct (dim =? 3); injection H1 as <-; injection H2 as <-.
  - split; vm_compute; reflexivity.
  - destruct (dim =? 2); (split; [vm_compute; reflexivity|vm_compute; reflexivity]).
Qed.
Lemma named_patched e n st : new_figure A CS m = Ok (mkfig [e; n] (layout A CS) [] []) ->
  named A CS (edge_patches A CS m st e) (node_patches A CS st n).
Proof.
  intro H. apply traces_explicit in H. destruct H as [x [y [ex [ey [sz [z [ez [H1 [H2 H3]]]]]]]]].
  unfold edges_trace in H1. unfold nodes_trace in H2. rewrite H3 in H2. cbn [rd nth_error bind] in H1, H2.
  unfold edge_patches, named. destruct (dim =? 3); injection H1 as <-; injection H2 as <-.
  - split; vm_compute; reflexivity.
  - destruct (dim =? 2); (split; [vm_compute; reflexivity|vm_compute; reflexivity]).
Qed.

(** Updating everything gives the figure that plotting anew gives. *)
Lemma update_like_plot c1 ns1 ti1 agg1 cm1 w1 h1 f1 c2 ns2 ti2 agg2 cm2 w2 h2 f2 :
  plot_plotly c1 ns1 ti1 agg1 cm1 w1 h1 = Ok f1 -> plot_plotly c2 ns2 ti2 agg2 cm2 w2 h2 = Ok f2 ->
  ti2 <> TNone -> cm2 <> CMNone -> (w2 = None -> w1 = None) -> (h2 = None -> h1 = None) ->
  plot_plotly_update w2 h2 ns2 (Some c2) ti2 (Some agg2) cm2 f1 = (f2, Ok tt).
Proof.
  intros H1 H2 Nt Nc Nw Nh. unfold ModelPlotly.plot_plotly in H1, H2.
  apply bind_ok in H1. destruct H1 as [cms1 [X1 H1]]. apply bind_ok in H1. destruct H1 as [cs1 [X2 H1]].
  apply bind_ok in H1. destruct H1 as [tis1 [X3 H1]]. apply bind_ok in H1. destruct H1 as [nss1 [X4 H1]].
  apply bind_ok in H2. destruct H2 as [cms2 [Y1 H2]]. apply bind_ok in H2. destruct H2 as [cs2 [Y2 H2]].
  apply bind_ok in H2. destruct H2 as [tis2 [Y3 H2]]. apply bind_ok in H2. destruct H2 as [nss2 [Y4 H2]].
  unfold ModelPlotly.plot_plotly_update.
  assert (Z1 : if_given (given_cmap cm2) to_cmaps = Ok (Some cms2)) by (destruct cm2; try contradiction; cbn [given_cmap if_given]; rewrite Y1; reflexivity).
  assert (Z2 : if_given (Some c2) to_colors = Ok (Some cs2)) by (cbn [if_given]; rewrite Y2; reflexivity).
  assert (Z3 : if_given (given_title ti2) (fun t => to_titles t (c_cols cs2)) = Ok (Some tis2)) by (destruct ti2; try contradiction; cbn [given_title if_given]; rewrite Y3; reflexivity).
  assert (Z4 : if_given (given_size ns2) to_node_sizes = Ok (Some nss2)) by (destruct ns2; try discriminate Y4; cbn [given_size if_given]; rewrite Y4; reflexivity).
  rewrite Z1, Z2. unfold fwith at 1. unfold fwith at 1. rewrite Z3. unfold fwith at 1. rewrite Z4. unfold fwith at 1.
  apply plot_closed in H1. destruct H1 as [e [n [st1 [mc1 [mo1 [B1 [B2 [B3 [B4 [B5 ->]]]]]]]]]].
  apply plot_closed in H2. destruct H2 as [e' [n' [st2 [mc2 [mo2 [C1 [C2 [C3 [C4 [C5 ->]]]]]]]]]].
  rewrite B1 in C1. injection C1 as <- <-.
  unfold fseq. rewrite (set_ui_closed A CS get_colorscale plotly_cmap str_num m), C4, C5. unfold set_controls, plotted. cbn [f_traces f_layout].
  pose proof (update_figure_closed A CS get_colorscale plotly_cmap str_num m tis2 nss2 cs2 agg2 cms2 w2 h2 _ _ (layout_patches A CS w1 h1 (layout A CS))
    [ui_menu_dark_mode A CS; mc2; mo2] [ui_slider_node_size A CS str_num nss2] (named_patched e n st1 B1)) as U.
  rewrite C3 in U. rewrite U. destruct (repatch e n st1 st2 B1) as [-> ->].
  f_equal. f_equal. destruct w2, w1, h2, h1; try reflexivity; try (specialize (Nw eq_refl); discriminate); specialize (Nh eq_refl); discriminate.
Qed.

(** ** Failing and ineffective updates *)
Lemma title_alone_fails w h ns ti agg cm f : ti <> TNone ->
  exists f' x, plot_plotly_update w h ns None ti agg cm f = (f', Err x).
Proof.
  intro N. unfold ModelPlotly.plot_plotly_update. unfold fwith at 1.
  destruct (if_given (given_cmap cm) to_cmaps) as [cms|x]; [|eauto].
  unfold fwith at 1. cbn [if_given]. unfold fwith at 1.
  assert (T : (exists x, if_given (given_title ti) (fun t => to_titles t 0) = Err x) \/ if_given (given_title ti) (fun t => to_titles t 0) = Ok (Some [])).
  { destruct ti as [|s|l|]; [contradiction| | |].
    - right. reflexivity.
    - cbn [given_title if_given to_titles]. destruct l; [right; reflexivity|left; eexists; reflexivity].
    - left. eexists. reflexivity. }
  destruct T as [[x T]|T]; rewrite T; [eauto|].
  unfold fwith at 1. destruct (if_given (given_size ns) to_node_sizes) as [nss|x]; [|eauto].
  unfold fseq at 1. destruct (set_ui cms None (Some []) agg nss f) as [f1 [u|x]]; [|eauto].
  unfold ModelPlotly.update_figure. unfold fseq at 1.
  destruct (fopt w (set_width A CS) f1) as [f2 [u2|x2]]; [|eauto]. unfold fseq at 1.
  destruct (fopt h (set_height A CS) f2) as [f3 [u3|x3]]; [|eauto]. unfold fseq at 1. cbn. eauto.
Qed.

(** ** What an update leaves alone *)
Definition keeps (T L : string -> Prop) (op : fop A CS) : Prop := forall f,
  Forall2 (fun t t' => forall path, ~ T path -> attr t' path = attr t path) (f_traces f) (f_traces (fst (op f))) /\
  (forall path, ~ L path -> attr (f_layout (fst (op f))) path = attr (f_layout f) path) /\
  f_menus (fst (op f)) = f_menus f /\ f_sliders (fst (op f)) = f_sliders f.

Lemma Forall2_diag {X} (R : X -> X -> Prop) l : (forall x, R x x) -> Forall2 R l l.
Proof. intro H. induction l; constructor; auto. Qed.
Lemma keeps_refl T L f : 
  Forall2 (fun t t' => forall path, ~ T path -> attr t' path = attr t path) (f_traces f) (f_traces (f : figure)) /\
  (forall path, ~ L path -> attr (f_layout f) path = attr (f_layout f) path) /\ f_menus f = f_menus f /\ f_sliders f = f_sliders f.
Proof. repeat split. apply Forall2_diag. auto. Qed.
Lemma keeps_skip T L : keeps T L fskip.
Proof. intro f. exact (keeps_refl T L f). Qed.
Lemma keeps_seq T L a b : keeps T L a -> keeps T L b -> keeps T L (fseq a b).
Proof.
  intros Ha Hb f. unfold fseq. specialize (Ha f). destruct (a f) as [f1 [u|x]]; [|exact Ha].
  specialize (Hb f1). cbn [fst] in *. destruct Ha as [A1 [A2 [A3 A4]]]. destruct Hb as [B1 [B2 [B3 B4]]]. split; [|split; [|split]].
  - clear - A1 B1. revert B1. generalize (f_traces (fst (b f1))). induction A1 as [|t t1 l l1 H _ IH]; intros l2 B1; inversion B1 as [|? t2 ? ? K]; subst; constructor; [|auto].
    intros path N. rewrite (K path N). apply H. exact N.
  - intros path N. rewrite B2 by exact N. apply A2. exact N.
  - congruence.
  - congruence.
Qed.
Lemma keeps_with {B} T L (r : res B) k : (forall b, keeps T L (k b)) -> keeps T L (fwith r k).
Proof. intros H f. unfold fwith. destruct r as [b|x]; [apply H|exact (keeps_refl T L f)]. Qed.
Lemma keeps_opt {B} T L (o : option B) k : (forall b, o = Some b -> keeps T L (k b)) -> keeps T L (fopt o k).
Proof. intros H. destruct o as [b|]; [apply H; reflexivity|apply keeps_skip]. Qed.
Lemma keeps_traces (T L : string -> Prop) patch name : (forall p, In p (map fst patch) -> T p) -> keeps T L (fdo (update_traces patch name)).
Proof.
  intros H f. cbn. split; [|split; [auto|split; reflexivity]].
  induction (f_traces f) as [|t l IH]; constructor; [|exact IH]. intros path N.
  destruct (has_name name t); [|reflexivity]. apply attr_apply_other. intro I. apply N, H, I.
Qed.
Lemma keeps_layout (T L : string -> Prop) patch : (forall p, In p (map fst patch) -> L p) -> keeps T L (fdo (update_layout patch)).
Proof.
  intros H f. cbn. split; [apply Forall2_diag; auto|]. split; [|split; reflexivity].
  intros path N. apply attr_apply_other. intro I. apply N, H, I.
Qed.
Lemma keeps_weaken (T L T' L' : string -> Prop) op : keeps T L op -> (forall p, T p -> T' p) -> (forall p, L p -> L' p) -> keeps T' L' op.
Proof.
  intros H HT HL f. destruct (H f) as [H1 [H2 H3]]. split; [|split; [|exact H3]].
  - clear - H1 HT. induction H1; constructor; [|assumption]. intros path N. apply H. auto.
  - intros path N. apply H2. auto.
Qed.

Definition touched (s : setting) (titles : option (list string)) (ns : option (list (num A))) (c : option (colors2 A)) (agg : option (agg_fn A)) (cms : option (list string)) : Prop :=
  match s with
  | STitle => titles <> None
  | SSize => ns <> None
  | SColors => c <> None /\ agg <> None
  | SScale => cms <> None
  end.

Lemma update_figure_keeps titles ns c agg cms w h :
  keeps (fun p => exists s, touched s titles ns c agg cms /\ belongs s p)
        (fun p => (p = "width"%string /\ w <> None) \/ (p = "height"%string /\ h <> None)) (update_figure titles ns c agg cms w h).
Proof.
  unfold ModelPlotly.update_figure.
  apply keeps_seq; [|apply keeps_seq; [|apply keeps_seq; [|apply keeps_seq; [|apply keeps_seq]]]].
  - apply keeps_opt. intros z ->. apply keeps_layout. intros p [<-|[]]. left. split; [reflexivity|discriminate].
  - apply keeps_opt. intros z ->. apply keeps_layout. intros p [<-|[]]. right. split; [reflexivity|discriminate].
  - apply keeps_opt. intros l ->. apply keeps_with. intro t. apply keeps_traces. intros p I. exists STitle. split; [discriminate|].
    unfold under in I. rewrite map_map in I. cbn [fst] in I. apply in_map_iff in I. destruct I as [q [<- _]]. exists (fst q). reflexivity.
  - apply keeps_opt. intros l ->. apply keeps_with. intro t. apply keeps_traces. intros p I. exists SSize. split; [discriminate|exact I].
  - apply keeps_opt. intros cc ->. apply keeps_opt. intros a ->. apply keeps_with. intro col. unfold set_colors.
    apply keeps_with. intro cols. apply keeps_with. intro txt.
    assert (B : forall p, In p ["text"; "marker.opacity"; "marker.color"; "marker.cmin"; "marker.cmax"; "line.color"; "line.cmin"; "line.cmax"]%string ->
      exists s, touched s titles ns (Some cc) (Some a) cms /\ belongs s p).
    { intros p I. exists SColors. split; [split; discriminate|exact I]. }
    apply keeps_seq.
    + apply keeps_traces. intros p I. apply B. simpl in I |- *. tauto.
    + destruct (dim =? 3); [|apply keeps_skip]. apply keeps_with. intro ec. apply keeps_traces. intros p I. apply B. simpl in I |- *. tauto.
  - apply keeps_opt. intros l ->. apply keeps_with. intro cm. unfold set_cmap. apply keeps_with. intro cs.
    assert (B : forall p, In p ["marker.colorscale"; "marker.line.colorscale"; "line.colorscale"]%string ->
      exists s, touched s titles ns c agg (Some l) /\ belongs s p).
    { intros p I. exists SScale. split; [discriminate|exact I]. }
    apply keeps_seq; [apply keeps_traces; intros p I; apply B; simpl in I |- *; tauto|].
    destruct (dim =? 3); [|destruct (dim =? 2); [|apply keeps_skip]]; apply keeps_traces; intros p I; apply B; simpl in I |- *; tauto.
Qed.

Lemma find_menu_name name l (x : menu A CS) : find_menu name l = Some x -> m_name x = name.
Proof.
  unfold find_menu. assert (G : forall o, (forall y, o = Some y -> m_name y = name) ->
    forall y, fold_left (fun o x => if String.eqb (m_name x) name then Some x else o) l o = Some y -> m_name y = name).
  { induction l as [|a l IH]; intros o Ho y H; simpl in H; [auto|].
    apply (IH (if String.eqb (m_name a) name then Some a else o)); [|exact H].
    intros z E. destruct (String.eqb_spec (m_name a) name); [injection E as <-; assumption|auto]. }
  apply G. discriminate.
Qed.
Lemma find_slider_name name l (x : slider A CS) : find_slider name l = Some x -> s_name x = name.
Proof.
  unfold find_slider. assert (G : forall o, (forall y, o = Some y -> s_name y = name) ->
    forall y, fold_left (fun o x => if String.eqb (s_name x) name then Some x else o) l o = Some y -> s_name y = name).
  { induction l as [|a l IH]; intros o Ho y H; simpl in H; [auto|].
    apply (IH (if String.eqb (s_name a) name then Some a else o)); [|exact H].
    intros z E. destruct (String.eqb_spec (s_name a) name); [injection E as <-; assumption|auto]. }
  apply G. discriminate.
Qed.
Lemma cmap_menu_name cms x : cmap_menu A CS get_colorscale plotly_cmap m cms = Ok x -> m_name x = "menu_cmap"%string.
Proof. unfold cmap_menu, ui_menu_cmap. intro H. apply bind_ok in H. destruct H as [b [_ H]]. injection H as <-. reflexivity. Qed.
Lemma color_menu_name c ti agg x : color_menu A CS m c ti agg = Ok x -> m_name x = "menu_color"%string.
Proof. unfold color_menu, ui_menu_color. intro H. apply bind_ok in H. destruct H as [b [_ H]]. injection H as <-. reflexivity. Qed.

Lemma set_ui_menus cms c ti agg ns f f' r : set_ui cms c ti agg ns f = (f', r) ->
  f_traces f' = f_traces f /\ f_layout f' = f_layout f /\
  (cms = None -> find_menu "menu_cmap" (f_menus f') = find_menu "menu_cmap" (f_menus f)) /\
  (c = None \/ ti = None \/ agg = None -> find_menu "menu_color" (f_menus f') = find_menu "menu_color" (f_menus f)) /\
  (ns = None -> find_slider "slider_node_size" (f_sliders f') = find_slider "slider_node_size" (f_sliders f)).
Proof.
  unfold ModelPlotly.set_ui. intro H.
  destruct (res_or (option_map (fun l => ui_menu_cmap A CS get_colorscale m (somes (map plotly_cmap l))) cms) (find_menu "menu_cmap" (f_menus f))) as [mc|x] eqn:E1;
    cbn [fwith] in H; [|injection H as <- <-; repeat split].
  destruct (res_or match c, agg, ti with Some c0, Some a, Some t => Some (ui_menu_color A CS m c0 t a) | _, _, _ => None end (find_menu "menu_color" (f_menus f))) as [mo|x] eqn:E2;
    cbn [fwith] in H; [|injection H as <- <-; repeat split].
  unfold fdo in H. injection H as <- <-. cbn [set_controls f_traces f_layout f_menus f_sliders].
  assert (Nc : forall y, mc = Some y -> m_name y = "menu_cmap"%string).
  { intros y ->. destruct cms as [l|]; cbn [option_map res_or] in E1.
    - apply bind_ok in E1. destruct E1 as [b [E1 E]]. injection E as <-. exact (cmap_menu_name l b E1).
    - injection E1 as E1. exact (find_menu_name _ _ _ E1). }
  assert (No : forall y, mo = Some y -> m_name y = "menu_color"%string).
  { intros y ->. unfold res_or in E2. destruct c as [c|], agg as [a|], ti as [t|]; try (injection E2 as E2; exact (find_menu_name _ _ _ E2)).
    apply bind_ok in E2. destruct E2 as [b [E2 E]]. injection E as <-. exact (color_menu_name c t a b E2). }
  split; [reflexivity|]. split; [reflexivity|].
  assert (F : find_menu "menu_cmap" (somes [Some (ui_menu_dark_mode A CS); mc; mo]) = mc /\ find_menu "menu_color" (somes [Some (ui_menu_dark_mode A CS); mc; mo]) = mo).
  { destruct mc as [y|], mo as [z|]; cbn; try rewrite (Nc _ eq_refl); try rewrite (No _ eq_refl); split; reflexivity. }
  destruct F as [F1 F2]. rewrite F1, F2. split; [|split].
  - intros ->. cbn in E1. congruence.
  - intro K. assert (E : res_or match c, agg, ti with Some c0, Some a, Some t => Some (ui_menu_color A CS m c0 t a) | _, _, _ => None end (find_menu "menu_color" (f_menus f)) = Ok (find_menu "menu_color" (f_menus f))).
    { destruct c, agg, ti; try reflexivity; destruct K as [K|[K|K]]; discriminate. }
    congruence.
  - intros ->. destruct (find_slider "slider_node_size" (f_sliders f)) as [s|] eqn:E; [|reflexivity].
    cbn. rewrite (find_slider_name _ _ _ E). reflexivity.
Qed.

Lemma if_given_none {B C} (k : B -> res C) : if_given None k = Ok None.
Proof. reflexivity. Qed.
Lemma if_given_some {B C} (o : option B) (k : B -> res C) r : if_given o k = Ok r -> r <> None -> o <> None.
Proof. destruct o; [discriminate|]. intro H. injection H as <-. auto. Qed.

Lemma update_keeps w h ns c ti agg cm f f' r : plot_plotly_update w h ns c ti agg cm f = (f', r) ->
  Forall2 (fun t t' => forall path, ~ (exists s, settings_given ns c ti agg cm s /\ belongs s path) -> attr t' path = attr t path) (f_traces f) (f_traces f') /\
  (forall path, ~ ((path = "width"%string /\ w <> None) \/ (path = "height"%string /\ h <> None)) -> attr (f_layout f') path = attr (f_layout f) path) /\
  (cm = CMNone -> find_menu "menu_cmap" (f_menus f') = find_menu "menu_cmap" (f_menus f)) /\
  (c = None \/ ti = TNone \/ agg = None -> find_menu "menu_color" (f_menus f') = find_menu "menu_color" (f_menus f)) /\
  (ns = NSNone -> find_slider "slider_node_size" (f_sliders f') = find_slider "slider_node_size" (f_sliders f)).
Proof.
  unfold ModelPlotly.plot_plotly_update. intro H.
  assert (Same : f' = f -> 
    Forall2 (fun t t' => forall path, ~ (exists s, settings_given ns c ti agg cm s /\ belongs s path) -> attr t' path = attr t path) (f_traces f) (f_traces f') /\
    (forall path, ~ ((path = "width"%string /\ w <> None) \/ (path = "height"%string /\ h <> None)) -> attr (f_layout f') path = attr (f_layout f) path) /\
    (cm = CMNone -> find_menu "menu_cmap" (f_menus f') = find_menu "menu_cmap" (f_menus f)) /\
    (c = None \/ ti = TNone \/ agg = None -> find_menu "menu_color" (f_menus f') = find_menu "menu_color" (f_menus f)) /\
    (ns = NSNone -> find_slider "slider_node_size" (f_sliders f') = find_slider "slider_node_size" (f_sliders f))).
  { intros ->. split; [apply Forall2_diag; auto|]. repeat split. }
  destruct (if_given (given_cmap cm) to_cmaps) as [cms|x] eqn:E1; cbn [fwith] in H; [|injection H as <- _; auto].
  destruct (if_given c to_colors) as [cc|x] eqn:E2; cbn [fwith] in H; [|injection H as <- _; auto].
  destruct (if_given (given_title ti) (fun t => to_titles t match cc with Some c0 => c_cols c0 | None => 0 end)) as [tis|x] eqn:E3; cbn [fwith] in H; [|injection H as <- _; auto].
  destruct (if_given (given_size ns) to_node_sizes) as [nss|x] eqn:E4; cbn [fwith] in H; [|injection H as <- _; auto].
  assert (G1 : cms <> None -> cm <> CMNone) by (intros K ->; apply (if_given_some _ _ _ E1 K); reflexivity).
  assert (G2 : cc <> None -> c <> None) by exact (if_given_some _ _ _ E2).
  assert (G3 : tis <> None -> ti <> TNone) by (intros K ->; apply (if_given_some _ _ _ E3 K); reflexivity).
  assert (G4 : nss <> None -> ns <> NSNone) by (intros K ->; apply (if_given_some _ _ _ E4 K); reflexivity).
  unfold fseq in H. destruct (set_ui cms cc tis agg nss f) as [f1 r1] eqn:Eu.
  destruct (set_ui_menus cms cc tis agg nss f f1 r1 Eu) as [U1 [U2 [U3 [U4 U5]]]].
  assert (V : Forall2 (fun t t' => forall path, ~ (exists s, settings_given ns c ti agg cm s /\ belongs s path) -> attr t' path = attr t path) (f_traces f1) (f_traces f') /\
    (forall path, ~ ((path = "width"%string /\ w <> None) \/ (path = "height"%string /\ h <> None)) -> attr (f_layout f') path = attr (f_layout f1) path) /\
    f_menus f' = f_menus f1 /\ f_sliders f' = f_sliders f1).
  { destruct r1 as [u|x].
    - pose proof (update_figure_keeps tis nss cc agg cms w h) as K.
      apply (keeps_weaken _ _ (fun p => exists s, settings_given ns c ti agg cm s /\ belongs s p)
               (fun p => (p = "width"%string /\ w <> None) \/ (p = "height"%string /\ h <> None))) in K;
        [|intros p [s [T B]]; exists s; split; [destruct s; cbn in *; tauto|exact B]|auto].
      specialize (K f1). rewrite H in K. exact K.
    - injection H as <- <-. split; [apply Forall2_diag; auto|]. repeat split. }
  destruct V as [V1 [V2 [V3 V4]]]. rewrite U1 in V1. rewrite U2 in V2. rewrite V3, V4.
  split; [exact V1|]. split; [exact V2|]. split; [|split].
  - intros ->. apply U3. injection E1 as <-. reflexivity.
  - intro K. apply U4. destruct K as [K|[K|K]]; [left|right; left|right; right; exact K]; subst; cbn [given_title if_given] in *; congruence.
  - intros ->. apply U5. injection E4 as <-. reflexivity.
Qed.
End Update.
