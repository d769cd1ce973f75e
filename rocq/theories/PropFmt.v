(** C63: the numbers in tooltips (plot_plotly.py:79-81, 614-622, plot_pyvis.py:26-28, 246-251). *)
From Coq Require Import String Ascii ZArith Reals Lia Lra.
From Flocq Require Import Core BinarySingleNaN.
From Verif Require Import Base ModelArith ModelCore SpecCore ModelDraw ModelPlotly SpecPlot ModelFloat SpecDouble FloatGrid.
From Verif Require Import ModelFmt SpecFmt FmtFacts FmtProp FmtText FmtShape.
From Verif Require PropPlot PropPyvis.
Local Open Scope Z_scope.

(** ** C63: a formatted float reads as a number of [p] digits nearest to it, with a relative error of
    at most half a unit of the last digit. *)
Theorem C63_nearest : forall p (x : b64), 1 <= p -> finite x ->
  exists v, read_decimal (fmt_b64 p x) = Some v /\ nearest_decimal p (value x) v /\
    (Rabs (v - value x) <= / 2 * bpow ten (1 - p) * Rabs (value x))%R.
Proof.
  intros p x Hp Hx. exists (round10 p (value x)). split; [apply fmt_read; assumption|].
  split; [apply round10_nearest, Hp|apply round10_error, Hp].
Qed.
Print Assumptions C63_nearest.

(** ** C63: larger numbers never read smaller. *)
Theorem C63_monotone : forall p (x y : b64) v w, 1 <= p -> finite x -> finite y -> (value x <= value y)%R ->
  read_decimal (fmt_b64 p x) = Some v -> read_decimal (fmt_b64 p y) = Some w -> (v <= w)%R.
Proof.
  intros p x y v w Hp Hx Hy L V W. rewrite fmt_read in V, W by assumption. injection V as <-. injection W as <-. apply round10_le; assumption.
Qed.
Print Assumptions C63_monotone.

(** ** C63: a float that stands for a decimal of at most [p <= 15] digits is shown as that decimal. *)
Theorem C63_decimals : forall p (x : b64) d, 1 <= p <= 15 -> finite x -> has_digits p d ->
  (Rabs (value x - d) <= / 2 ^ 53 * Rabs d)%R -> read_decimal (fmt_b64 p x) = Some d.
Proof.
  intros p x d Hp Hx D E. rewrite fmt_read by (auto; lia). f_equal. apply round10_near; assumption.
Qed.
Print Assumptions C63_decimals.

(** ** C63: texts are canonical: of numbers with the same sign, those that read the same have the same text. *)
Theorem C63_same_text : forall p (x y : b64), 1 <= p -> finite x -> finite y -> Bsign x = Bsign y ->
  (fmt_b64 p x = fmt_b64 p y <-> read_decimal (fmt_b64 p x) = read_decimal (fmt_b64 p y)).
Proof.
  intros p x y Hp Hx Hy S. split; [congruence|]. intro E. rewrite !fmt_read in E by assumption. injection E as E. apply fmt_same; assumption.
Qed.
Print Assumptions C63_same_text.

(** ** C63: a number halfway between two decimals is shown as the one whose last digit is even. *)
Theorem C63_ties : forall p (x : b64), 2 <= p -> finite x -> value x <> 0%R ->
  exists v, read_decimal (fmt_b64 p x) = Some v /\ ties_to_even p (value x) v.
Proof.
  intros p x Hp Hx Nz. exists (round10 p (value x)). split; [apply fmt_read; [lia|exact Hx]|apply round10_ties; assumption].
Qed.
Print Assumptions C63_ties.

(** ** C63: the form of the text: no needless zeros, and an exponent exactly for what is below
    [10 ^ -4] or at least [10 ^ p]. *)
Theorem C63_shape : forall p (x : b64), 1 <= p -> finite x -> value x <> 0%R ->
  exists v, read_decimal (fmt_b64 p x) = Some v /\ has_shape p v (fmt_b64 p x).
Proof.
  intros p x Hp Hx Nz. exists (round10 p (value x)). split; [apply fmt_read; assumption|apply fmt_shape; assumption].
Qed.
Print Assumptions C63_shape.

(** ** C63: texts are short: 10 characters for 3 digits. *)
Theorem C63_length : forall p (x : b64), 1 <= p -> Z.of_nat (String.length (fmt_b64 p x)) <= p + 7.
Proof. intros p x Hp. apply fmt_length, Hp. Qed.
Print Assumptions C63_length.

(** ** C63: integers of at most [p] digits are written out. *)
Theorem C63_integers : forall p n, 1 <= p -> 0 <= n < 10 ^ p -> n < 2 ^ 53 ->
  fmt_int p n = str_int n /\ read_decimal (fmt_int p n) = Some (IZR n).
Proof.
  intros p n Hp Hn H53. rewrite fmt_int_exact by assumption. split; [reflexivity|apply int_read].
Qed.
Print Assumptions C63_integers.

(** ** C63: larger ones are not: different sizes, same text. *)
Theorem C63_large_sizes_refuted : exists n n', n <> n' /\ fmt_int 5 n = fmt_int 5 n' /\ fmt_int 5 n = "1e+05"%string.
Proof. exists 100000, 100001. vm_compute. repeat split. discriminate. Qed.
Print Assumptions C63_large_sizes_refuted.

(** The tooltips of the nodes' trace, as texts. *)
Definition hover {CS} (nt : attrs BA CS) (i : nat) : option string := option_map plotly_label (tooltip nt i).

(** ** C63: plotly. The tooltip of the [i]-th marker names the [i]-th node, gives its colour with three
    digits and its size exactly if it is below 100000, and no two markers have the same tooltip. *)
Theorem C63_plotly_tooltips :
  forall CS get_colorscale plotly_cmap str_num (m : mapper_plot BA),
  well_formed (mp_graph m) ->
  forall c ns ti agg cm w h f,
  plot_plotly BA CS get_colorscale plotly_cmap str_num m c ns ti agg cm w h = Ok f ->
  exists cc et nt, to_colors c = Ok cc /\ f_traces f = [et; nt] /\
    (forall i n s ids, nth_error (g_nodes (mp_graph m)) i = Some (n, (s, ids)) ->
      exists col (color : b64) C N S, is_column cc 0 col /\ node_color (A := BA) col agg ids color /\
        hover nt i = Some ("color: " ++ C ++ "<br>node: " ++ N ++ "<br>size: " ++ S)%string /\
        read_decimal N = Some (IZR n) /\
        (finite color -> exists v, read_decimal C = Some v /\ nearest_decimal 3 (value color) v) /\
        (Z.of_nat s < 2 ^ 53 -> exists v, read_decimal S = Some v /\ nearest_decimal 5 (IZR (Z.of_nat s)) v) /\
        (Z.of_nat s < 100000 -> read_decimal S = Some (IZR (Z.of_nat s)))) /\
    (forall i j t, hover nt i = Some t -> hover nt j = Some t -> i = j).
Proof.
  intros CS gc pc sn m W c ns ti agg cm w h f H.
  destruct (PropPlot.C41_plotly_markers BA CS gc pc sn m W c ns ti agg cm w h f H) as [cc [et [nt [Q1 [Q2 [Q3 [_ Q4]]]]]]].
  exists cc, et, nt. split; [exact Q1|]. split; [exact Q2|]. split.
  - intros i n s ids E. destruct (Q4 i n s ids E) as [p [col [color [M [_ [R1 [R2 [_ [_ [_ [_ [_ [_ [_ R3]]]]]]]]]]]]]].
    exists col, color, (fmt_b64 3 color), (str_int n), (fmt_int 5 (Z.of_nat s)). split; [exact R1|]. split; [exact R2|].
    split; [unfold hover; rewrite R3; reflexivity|]. split; [apply int_read|]. split.
    + intro F. destruct (C63_nearest 3 color ltac:(lia) F) as [v [V [N _]]]. exists v. auto.
    + split.
      * intro L. destruct (b_ofz_val (Z.of_nat s) ltac:(lia)) as [F V]. destruct (C63_nearest 5 (b_ofz (Z.of_nat s)) ltac:(lia) F) as [v [V' [N _]]].
        exists v. rewrite V in N. auto.
      * intro L. apply C63_integers; lia.
  - assert (G : forall i t, hover nt i = Some t -> exists n s ids color, nth_error (g_nodes (mp_graph m)) i = Some (n, (s, ids)) /\ t = plotly_label (color, n, s)).
    { intros i t E. unfold hover in E. destruct (tooltip nt i) as [tt|] eqn:T; [|discriminate]. injection E as <-.
      assert (L : (i < length (g_nodes (mp_graph m)))%nat).
      { pose proof (Q3 "text"%string ltac:(simpl; auto 10)) as A. unfold tooltip in T. unfold array_length in A. destruct (attr nt "text"); try discriminate.
        injection A as A. rewrite <- A. apply nth_error_Some. intro Z0. discriminate (eq_trans (eq_sym Z0) T). }
      destruct (nth_error (g_nodes (mp_graph m)) i) as [[n [s ids]]|] eqn:E; [|apply nth_error_None in E; lia].
      destruct (Q4 i n s ids E) as [p [col [color [M [_ [_ [_ [_ [_ [_ [_ [_ [_ [_ R3]]]]]]]]]]]]]]. rewrite T in R3. injection R3 as ->.
      exists n, s, ids, color. auto. }
    intros i j t Hi Hj. destruct (G i t Hi) as [n [s [ids [color [E ->]]]]]. destruct (G j _ Hj) as [n' [s' [ids' [color' [E' L]]]]].
    apply plotly_label_inj in L. destruct L as [_ [L _]]. subst n'. destruct W as [ND _].
    assert (K : nth_error (map fst (g_nodes (mp_graph m))) i = nth_error (map fst (g_nodes (mp_graph m))) j).
    { rewrite !nth_error_map, E, E'. reflexivity. }
    apply (proj1 (NoDup_nth_error _) ND); [|exact K]. apply nth_error_Some. rewrite nth_error_map, E. discriminate.
Qed.
Print Assumptions C63_plotly_tooltips.

(** ** C63: pyvis. The title of the [i]-th node names it and gives its colour with three digits and the
    size of its marker in full; no two nodes have the same title. *)
Theorem C63_pyvis_titles :
  forall root round_int pinf ninf CS get_colorscale (m : mapper_plot BA),
  well_formed (mp_graph m) -> symmetric_graph (mp_graph m) ->
  forall colors node_size agg w h cmap net,
  compute_net BA root round_int pinf ninf CS get_colorscale m colors node_size agg w h cmap = Ok net ->
  (forall i n s ids, nth_error (g_nodes (mp_graph m)) i = Some (n, (s, ids)) ->
    exists (v : pv_node BA) (color : b64) C N S, nth_error (net_nodes net) i = Some v /\ node_color (A := BA) colors agg ids color /\
      pyvis_label (pv_title v) = ("color: " ++ C ++ newline ++ "node: " ++ N ++ newline ++ "size: " ++ S)%string /\
      read_decimal N = Some (IZR n) /\ read_decimal S = Some (IZR (pv_size v)) /\
      (finite color -> exists x, read_decimal C = Some x /\ nearest_decimal 3 (value color) x)) /\
  NoDup (map (fun v : pv_node BA => pyvis_label (pv_title v)) (net_nodes net)).
Proof.
  intros root ri pinf ninf CS gc m W Sy colors ns agg w h cmap net H.
  destruct (PropPyvis.C41_pyvis_nodes_edges BA root ri pinf ninf CS gc m W Sy colors ns agg w h cmap net H) as [_ [L Q]]. split.
  - intros i n s ids E. destruct (Q i n s ids E) as [v [pos [x [y [color [R1 [R2 [_ [_ [_ [_ [_ [R3 [R4 _]]]]]]]]]]]]]].
    exists v, color, (fmt_b64 3 color), (str_int n), (str_int (pv_size v)). split; [exact R1|]. split; [exact R3|].
    split; [rewrite R4; reflexivity|]. split; [apply int_read|]. split; [apply int_read|].
    intro F. destruct (C63_nearest 3 color ltac:(lia) F) as [u [V [N _]]]. exists u. auto.
  - assert (G : forall i v, nth_error (net_nodes net) i = Some v -> exists n s ids color,
                  nth_error (g_nodes (mp_graph m)) i = Some (n, (s, ids)) /\ pv_title v = (color, n, pv_size v)).
    { intros i v E. assert (I : (i < length (g_nodes (mp_graph m)))%nat) by (rewrite <- L; apply nth_error_Some; rewrite E; discriminate).
      destruct (nth_error (g_nodes (mp_graph m)) i) as [[n [s ids]]|] eqn:E'; [|apply nth_error_None in E'; lia].
      destruct (Q i n s ids E') as [v' [pos [x [y [color [R1 [R2 [_ [_ [_ [_ [_ [R3 [R4 _]]]]]]]]]]]]]]. rewrite E in R1. injection R1 as <-.
      exists n, s, ids, color. auto. }
    apply NoDup_nth_error. intros i j Hi E. rewrite map_length in Hi. rewrite !nth_error_map in E.
    destruct (nth_error (net_nodes net) i) as [v|] eqn:Ev; [|apply nth_error_None in Ev; lia].
    destruct (nth_error (net_nodes net) j) as [v'|] eqn:Ev'; [|discriminate]. injection E as E.
    destruct (G i v Ev) as [n [s [ids [color [G1 G2]]]]], (G j v' Ev') as [n' [s' [ids' [color' [G1' G2']]]]]. rewrite G2, G2' in E.
    apply pyvis_label_inj in E. destruct E as [_ [E _]]. subst n'. destruct W as [ND _].
    assert (K : nth_error (map fst (g_nodes (mp_graph m))) i = nth_error (map fst (g_nodes (mp_graph m))) j).
    { rewrite !nth_error_map, G1, G1'. reflexivity. }
    apply (proj1 (NoDup_nth_error _) ND); [|exact K]. apply nth_error_Some. rewrite nth_error_map, G1. discriminate.
Qed.
Print Assumptions C63_pyvis_titles.

(** Texts of some numbers. *)
Definition ratio (a b : Z) : b64 := b_div (b_ofz a) (b_ofz b).
Example fmt_examples :
  map (fun q => fmt_b64 3 (ratio (fst q) (snd q)))
    [(1, 3); (-2, 3); (1, 1); (9995, 10); (9994, 10); (12345, 1); (0, 1); (1, 10); (1, 10000); (1, 100000); (1125, 1000); (1135, 1000); (1, 0)]
  = ["0.333"; "-0.667"; "1"; "1e+03"; "999"; "1.23e+04"; "0"; "0.1"; "0.0001"; "1e-05"; "1.12"; "1.14"; "inf"]%string.
Proof. vm_compute. reflexivity. Qed.
Example fmt_extremes :
  [fmt_b64 3 (b_make (2 ^ 53 - 1) 971); fmt_b64 3 (b_make 1 (-1074)); fmt_b64 3 (b_make (-1) (-1000)); fmt_b64 3 (B754_zero true); fmt_int 5 99999; fmt_int 5 123456]
  = ["1.8e+308"; "4.94e-324"; "-9.33e-302"; "-0"; "99999"; "1.2346e+05"]%string.
Proof. vm_compute. reflexivity. Qed.
Example label_examples :
  plotly_label (ratio 3 4, 7, 12%nat) = "color: 0.75<br>node: 7<br>size: 12"%string /\
  pyvis_label (ratio 3 4, 7, 25) = ("color: 0.75" ++ newline ++ "node: 7" ++ newline ++ "size: 25")%string.
Proof. vm_compute. split; reflexivity. Qed.

(** The hypotheses of C63_decimals for 0.1: the double nearest to a tenth is shown as a tenth. *)
Example tenth_shown : read_decimal (fmt_b64 3 (ratio 1 10)) = Some (dec 1 (-1)).
Proof.
  apply C63_decimals; [lia|reflexivity|exists 1, (-1); split; [reflexivity|reflexivity]|].
  assert (V : value (ratio 1 10) = (7205759403792794 * / 2 ^ 56)%R).
  { assert (E : B2SF (ratio 1 10) = SpecFloat.S754_finite false 7205759403792794 (-56)) by (vm_compute; reflexivity).
    unfold value. destruct (ratio 1 10) as [s|s| |s m e Hb]; try discriminate. simpl in E. injection E as -> -> ->.
    unfold B2R, F2R. cbn [Fnum Fexp cond_Zopp]. change (-56) with (- (56)). rewrite bpow_opp. f_equal. f_equal. rewrite <- (IZR_Zpower radix2) by lia. rewrite pow_IZR. f_equal. }
  rewrite V. unfold dec. change (bpow ten (-1)) with (/ 10)%R. rewrite (Rabs_pos_eq (1 * / 10)) by lra. apply Rabs_le. lra.
Qed.

(** The demo graph of C41, drawn with doubles: its tooltips. *)
Definition b_first (l : list b64) : res b64 := match l with x :: _ => Ok x | [] => Err ValueError end.
Definition b_plot : mapper_plot BA :=
  mkplot (A := BA) PropPlot.demo_graph 2 (map (fun n => (n, [b_ofz n; b_ofz 1])) (nodes PropPlot.demo_graph)).
Definition b_colors : list b64 := [ratio 1 3; ratio 12345 10; ratio (-5) 2; ratio 1 1000000; ratio 4 1].
Definition b_fig : res (figure BA string) :=
  plot_plotly BA string PropPlot.demo_scale PropPlot.demo_cmap (fun _ => ""%string) b_plot (CA1 (A := BA) b_colors) (NSNum (A := BA) (b_ofz 1)) TNone b_first CMNone None None.
Definition b_net : res (network BA) :=
  compute_net BA b_sqrt (fun x => b_floor (b_plus x (ratio 1 2))) (B754_infinity false) (B754_infinity true) string PropPlot.demo_scale b_plot b_colors (b_ofz 1) b_first 100 100 "Jet".
Example C63_demo_plotly :
  well_formed (mp_graph b_plot) /\ symmetric_graph (mp_graph b_plot) /\
  match b_fig with Ok f => map (fun i => hover (nth 1 (f_traces f) []) i) [0; 1; 2]%nat | Err _ => [] end
  = [Some "color: 0.333<br>node: 0<br>size: 2"; Some "color: 0.333<br>node: 4<br>size: 1"; Some "color: 1.23e+03<br>node: 1<br>size: 1"]%string.
Proof.
  split; [apply PropPlot.C41_demo_placed|]. split; [apply PropPlot.C41_demo_placed|]. vm_compute. reflexivity.
Qed.
Example C63_demo_pyvis :
  match b_net with Ok n => map (fun v : pv_node BA => pyvis_label (pv_title v)) (firstn 2 (net_nodes n)) | Err _ => [] end
  = [("color: 0.333" ++ newline ++ "node: 0" ++ newline ++ "size: 25")%string; ("color: 0.333" ++ newline ++ "node: 4" ++ newline ++ "size: 18")%string].
Proof. vm_compute. reflexivity. Qed.
