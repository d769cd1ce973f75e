(** C66: the file written by [plot_pyvis] (plot_pyvis.py:31-181). *)
From Coq Require Import String Reals Lra Lia ZArith.
From Verif Require Import Base BaseFacts ModelArith SpecMetric ModelCore SpecCore ModelDraw SpecPlot ModelPyvisFile.
From Verif Require PropPlot PropPyvis.

Section Pages.
Variable A : arith.
Variable network_html : Z -> Z -> network A -> res string.
Variable bar_html : bar A -> res string.
Variables page_start page_middle page_end : string.
Variable root : num A -> num A.
Variable round_int : num A -> Z.
Variables pinf ninf : num A.
Variable CS : Type.
Variable get_colorscale : string -> res CS.
Notation plot_pyvis := (plot_pyvis A network_html bar_html page_start page_middle page_end root round_int pinf ninf CS get_colorscale).
Notation compute_net := (compute_net A root round_int pinf ninf CS get_colorscale).

(** [text] is the page of a plot: the drawn network followed by a colour bar with
    its title, its colour scale, and the limits that the nodes were coloured with. *)
Definition page_of (m : mapper_plot A) (colors : list (num A)) (node_size : num A) (agg : list (num A) -> res (num A))
    (title : option string) (w h : Z) (cmap text : string) : Prop :=
  exists net b n c, compute_net m colors node_size agg w h cmap = Ok net /\
    bar_height b = h /\ bar_cmap b = cmap /\ bar_title b = title /\ bar_cmin b = net_cmin net /\ bar_cmax b = net_cmax net /\
    network_html w h net = Ok n /\ bar_html b = Ok c /\
    text = (page_start ++ n ++ page_middle ++ c ++ page_end)%string.

Lemma plot_pyvis_cases s m out colors ns agg title w h cmap fs :
  (exists text, page_of m colors ns agg title w h cmap text /\
     plot_pyvis s m out colors ns agg title w h cmap fs = write_file s out text fs) \/
  (exists e, (forall text, ~ page_of m colors ns agg title w h cmap text) /\
     plot_pyvis s m out colors ns agg title w h cmap fs = (fs, Err e)).
Proof.
  unfold ModelPyvisFile.plot_pyvis. destruct (compute_net m colors ns agg w h cmap) as [net|e] eqn:N.
  2: { right. exists e. split; [|reflexivity]. intros text [net [b [n [c [E _]]]]]. congruence. }
  cbn [bind]. unfold combine. destruct (network_html w h net) as [n|e] eqn:Nh.
  2: { right. exists e. split; [|reflexivity]. intros text [net' [b [n [c [E [_ [_ [_ [_ [_ [E' _]]]]]]]]]]]. congruence. }
  cbn [bind]. destruct (bar_html _) as [c|e] eqn:Bh.
  2: { right. exists e. split; [|reflexivity]. intros text [net' [b [n' [c [E [E1 [E2 [E3 [E4 [E5 [_ [E' _]]]]]]]]]]]].
       assert (net' = net) by congruence. destruct b as [bh bc b1 b2 bt]. cbn in E1, E2, E3, E4, E5. subst net' bh bc bt b1 b2.
       unfold colorbar in Bh. congruence. }
  left. eexists. split; [|reflexivity]. exists net, (colorbar A h cmap (net_cmin net) (net_cmax net) title), n, c.
  repeat (split; [reflexivity || assumption|]). reflexivity.
Qed.

(** ** C66: no other file is touched, whatever happens. *)
Theorem C66_only_that_file : forall s m out colors ns agg title w h cmap fs path,
  path <> out -> fst (plot_pyvis s m out colors ns agg title w h cmap fs) path = fs path.
Proof.
  intros s m out colors ns agg title w h cmap fs path N.
  assert (P : forall fs' c, put fs' out c path = fs' path).
  { intros fs' c. unfold put. destruct (String.eqb_spec path out); [contradiction|reflexivity]. }
  destruct (plot_pyvis_cases s m out colors ns agg title w h cmap fs) as [[text [_ ->]]|[e [_ ->]]]; [|reflexivity].
  unfold write_file. destruct (sys_open s out); [reflexivity|]. destruct (sys_write s out text) as [[n e]|]; cbn [fst]; rewrite !P; reflexivity.
Qed.

(** ** C66: when it returns, the file holds the page of this plot, whatever was there before. *)
Theorem C66_written : forall s m out colors ns agg title w h cmap fs fs',
  plot_pyvis s m out colors ns agg title w h cmap fs = (fs', Ok tt) ->
  exists text, page_of m colors ns agg title w h cmap text /\ fs' out = Some text.
Proof.
  intros s m out colors ns agg title w h cmap fs fs' H.
  destruct (plot_pyvis_cases s m out colors ns agg title w h cmap fs) as [[text [P E]]|[e [_ E]]]; rewrite E in H; [|discriminate].
  exists text. split; [exact P|]. unfold write_file in H. destruct (sys_open s out); [discriminate|].
  destruct (sys_write s out text) as [[n e]|]; [discriminate|]. injection H as <-. unfold put. rewrite String.eqb_refl. reflexivity.
Qed.

(** ** C66: when it raises, the file is as before, except if the page was computed,
    the file was opened, and writing it failed: then it holds a beginning of the page. *)
Theorem C66_raised : forall s m out colors ns agg title w h cmap fs fs' e,
  plot_pyvis s m out colors ns agg title w h cmap fs = (fs', Err e) ->
  fs' out = fs out \/
  exists text k part rest, page_of m colors ns agg title w h cmap text /\ sys_open s out = None /\
    sys_write s out text = Some (k, e) /\ fs' out = Some part /\ text = (part ++ rest)%string.
Proof.
  intros s m out colors ns agg title w h cmap fs fs' e H.
  destruct (plot_pyvis_cases s m out colors ns agg title w h cmap fs) as [[text [P E]]|[e' [_ E]]]; rewrite E in H.
  2: { injection H as <- _. left. reflexivity. }
  unfold write_file in H. destruct (sys_open s out) eqn:O; [injection H as <- _; left; reflexivity|].
  destruct (sys_write s out text) as [[k e']|] eqn:Wr; [|discriminate]. injection H as <- <-. right.
  assert (Pre : forall k t, exists rest, t = (substring 0 k t ++ rest)%string).
  { clear. induction k as [|k IH]; intro t; [exists t; destruct t; reflexivity|]. destruct t as [|a t]; [exists EmptyString; reflexivity|].
    destruct (IH t) as [r Hr]. exists r. simpl. f_equal. exact Hr. }
  destruct (Pre k text) as [rest Hr]. exists text, k, (substring 0 k text), rest. split; [exact P|]. split; [reflexivity|]. split; [exact Wr|].
  split; [unfold put; rewrite String.eqb_refl; reflexivity|exact Hr].
Qed.

(** ** C66: it returns exactly if the plot has a page, the file can be opened, and the page written. *)
Theorem C66_returns : forall s m out colors ns agg title w h cmap fs,
  snd (plot_pyvis s m out colors ns agg title w h cmap fs) = Ok tt <->
  exists text, page_of m colors ns agg title w h cmap text /\ sys_open s out = None /\ sys_write s out text = None.
Proof.
  intros s m out colors ns agg title w h cmap fs.
  assert (U : forall t t', page_of m colors ns agg title w h cmap t -> page_of m colors ns agg title w h cmap t' -> t = t').
  { intros t t' [net [[? ? ? ? ?] [n [c [E0 [E1 [E2 [E3 [E4 [E5 [E6 [E7 E8]]]]]]]]]]]] [net' [[? ? ? ? ?] [n' [c' [F0 [F1 [F2 [F3 [F4 [F5 [F6 [F7 F8]]]]]]]]]]]].
    cbn in *. assert (net' = net) by congruence. subst. assert (n' = n) by congruence. assert (c' = c) by congruence. subst. reflexivity. }
  destruct (plot_pyvis_cases s m out colors ns agg title w h cmap fs) as [[text [P E]]|[e [N E]]]; rewrite E.
  - unfold write_file. split.
    + intro H. exists text. split; [exact P|]. destruct (sys_open s out); [discriminate|]. destruct (sys_write s out text) as [[k e]|]; [discriminate|]. split; reflexivity.
    + intros [t [Pt [O Wr]]]. rewrite (U _ _ Pt P) in Wr. rewrite O, Wr. reflexivity.
  - split; [discriminate|]. intros [t [Pt _]]. exfalso. exact (N t Pt).
Qed.
End Pages.
Print Assumptions C66_only_that_file.
Print Assumptions C66_written.
Print Assumptions C66_raised.
Print Assumptions C66_returns.

(** ** C66: the bar explains the colours: its limits are the smallest and the largest
    aggregated colour, and the point of the scale at which a node is coloured is where
    the bar has the node's aggregated colour. *)
Definition on_bar (b : bar XA) (c p : R) : Prop :=
  exists lo hi, bar_cmin b = XFin lo /\ bar_cmax b = XFin hi /\ (lo <= c <= hi)%R /\ (c = lo + p * (hi - lo))%R.
Theorem C66_bar_explains_colors :
  forall CS get_colorscale (m : mapper_plot XA), well_formed (mp_graph m) -> g_nodes (mp_graph m) <> [] ->
  forall colors node_size agg w h cmap net title,
  compute_net XA xsqrt xround XPos XNeg CS get_colorscale m colors node_size agg w h cmap = Ok net ->
  (forall xs v, agg xs = Ok v -> exists r, v = XFin r) ->
  let b := colorbar XA h cmap (net_cmin net) (net_cmax net) title in
  forall i z s ids, nth_error (g_nodes (mp_graph m)) i = Some (z, (s, ids)) ->
    exists v c p, nth_error (net_nodes net) i = Some v /\ node_color colors agg ids (XFin c) /\
      pv_color v = XFin p /\ (0 <= p <= 1)%R /\ on_bar b c p.
Proof.
  intros CS gc m W N colors ns agg w h cmap net title H Ha b i z s ids E.
  destruct (PropPyvis.C41_pyvis_colors CS gc m W N colors ns agg w h cmap net H Ha) as [lo [hi [B1 [B2 Q]]]].
  destruct (Q i z s ids E) as [v [c [p [Q1 [Q2 [Q3 [Q4 [Q5 [Q6 Q7]]]]]]]]]. exists v, c, p.
  repeat (split; [assumption|]). exists lo, hi. split; [exact B1|]. split; [exact B2|]. split; [exact Q3|].
  destruct (Rlt_or_le lo hi) as [L|L]; [rewrite (Q6 L); field; lra|]. assert (lo = hi) by lra. subst. lra.
Qed.
Print Assumptions C66_bar_explains_colors.

(** *** A run: four systems, with an old page at the same path and another file. *)
Definition demo_net_html (w h : Z) (n : network QA) : res string := Ok "<net>"%string.
Definition demo_bar_html (b : bar QA) : res string := Ok (match bar_title b with Some t => t | None => "" end)%string.
Definition old_files : files := put (put (fun _ => None) "a.html" "old page") "b.html" "other".
Definition fine : system := mksys (fun _ => None) (fun _ _ => None).
Definition refuses : system := mksys (fun _ => Some (UserError 1)) (fun _ _ => None).
Definition full : system := mksys (fun _ => None) (fun _ _ => Some (9, UserError 2)).
Definition demo_run (s : system) (colors : list QArith_base.Q) : list (option string) * res unit :=
  let '(fs, r) := plot_pyvis QA demo_net_html demo_bar_html "<page>" "<bar>" "</page>" (fun q => q) (fun q => Qround.Qfloor q)
    (QArith_base.inject_Z 1000) (QArith_base.inject_Z (-1000)) string PropPlot.demo_scale s (PropPlot.demo_plot 2) "a.html" colors
    (QArith_base.inject_Z 1) PropPlot.mean (Some "colour"%string) 100 100 "Jet" old_files in
  (map fs ["a.html"; "b.html"; "c.html"]%string, r).
Definition four : list QArith_base.Q := map QArith_base.inject_Z [1; 2; 3; 4]%Z.
Example C66_runs :
  demo_run fine four = ([Some "<page><net><bar>colour</page>"; Some "other"; None]%string, Ok tt) /\
  demo_run refuses four = ([Some "old page"; Some "other"; None]%string, Err (UserError 1)) /\
  demo_run full four = ([Some "<page><ne"; Some "other"; None]%string, Err (UserError 2)) /\
  demo_run fine (firstn 3 four) = ([Some "old page"; Some "other"; None]%string, Err IndexError).
Proof. vm_compute. repeat split. Qed.

(** ** C66: false, a call that raises leaves the old page: the file is emptied first. *)
Theorem C66_old_page_kept_refuted : exists s colors fs' e,
  demo_run s colors = (fs', Err e) /\ old_files "a.html"%string = Some "old page"%string /\ nth_error fs' 0 <> Some (Some "old page"%string).
Proof. exists full, four. eexists _, _. split; [vm_compute; reflexivity|]. split; [reflexivity|discriminate]. Qed.
Print Assumptions C66_old_page_kept_refuted.
