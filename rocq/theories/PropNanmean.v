(** C64: the default colour aggregation, [np.nanmean] (plot.py:102, 143, 236). *)
From Coq Require Import String Permutation Reals Lra Lia SpecFloat.
From Flocq Require Import Core BinarySingleNaN.
From Verif Require Import Base BaseFacts ModelArith ModelFloat ModelCore SpecDouble SpecCore FloatFacts FloatGrid VPProp.
From Verif Require Import ModelDraw ModelPlotly SpecPlot PlotlyShow PlotlyControls ModelFastmath ModelNanmean SpecNanmean NanmeanProp.
From Verif Require Import SpecMetric ModelCover PyvisProp PyvisNan.
From Verif Require PropPlot.
Open Scope R_scope.

(** ** C64: the colour of a node is missing (NaN) exactly when all its values are. *)
Theorem C64_nan :
  forall order xs, (forall n, plan_for n (order n)) -> few xs -> tame 1000 xs ->
  (nanmean order xs = Ok B754_nan <-> Forall (fun x => x = B754_nan) xs).
Proof. exact nanmean_nan. Qed.
Print Assumptions C64_nan.

(** ** C64: otherwise it is a finite number, the exact average of the other values
    up to rounding, however the additions are ordered. *)
Theorem C64_mean :
  forall order xs rs B, (forall n, plan_for n (order n)) -> few xs -> tame 1000 xs ->
  present xs rs -> rs <> [] -> Forall (fun r => Rabs r <= B) rs ->
  exists r, nanmean order xs = Ok r /\ finite r /\ Rabs (value r - mean rs) <= mean_error (length xs) B.
Proof.
  intros order xs rs B O F T P N H. destruct (nanmean_val order O xs rs T F P N) as [r [E [Fr V]]].
  exists r. split; [exact E|]. split; [exact Fr|]. rewrite V. apply mean_close; assumption.
Qed.
Print Assumptions C64_mean.

(** ** C64: it lies between the smallest and the largest of them, up to rounding. *)
Theorem C64_between :
  forall order xs rs lo hi, (forall n, plan_for n (order n)) -> few xs -> tame 1000 xs ->
  present xs rs -> rs <> [] -> Forall (fun r => lo <= r <= hi) rs ->
  let E := mean_error (length xs) (Rmax (Rabs lo) (Rabs hi)) in
  exists r, nanmean order xs = Ok r /\ finite r /\ lo - E <= value r <= hi + E.
Proof.
  intros order xs rs lo hi O F T P N H E.
  destruct (C64_mean order xs rs (Rmax (Rabs lo) (Rabs hi)) O F T P N) as [r [R1 [R2 R3]]].
  { eapply Forall_impl; [|exact H]. intros a [A1 A2]. cbv beta.
    pose proof (Rmax_l (Rabs lo) (Rabs hi)). pose proof (Rmax_r (Rabs lo) (Rabs hi)).
    pose proof (Rle_abs (- lo)). rewrite Rabs_Ropp in *. pose proof (Rle_abs hi). apply Rabs_le. lra. }
  exists r. split; [exact R1|]. split; [exact R2|]. pose proof (mean_between rs lo hi N H). apply Rabs_le_inv in R3.
  fold E in R3. lra.
Qed.
Print Assumptions C64_between.

(** ** C64: averages of integers (class labels, counts): nothing is lost in the sum,
    and the colour is the double nearest to the exact average. *)
Theorem C64_integers :
  forall order xs rs, (forall n, plan_for n (order n)) -> few xs -> tame 1000 xs ->
  present xs rs -> rs <> [] -> Forall is_integer rs -> total_of (map Rabs rs) <= IZR (2 ^ 53) ->
  exists r, nanmean order xs = Ok r /\ finite r /\
    forall y : b64, finite y -> Rabs (value r - mean rs) <= Rabs (value y - mean rs).
Proof.
  intros order xs rs O F T P N I B. destruct (nanmean_val order O xs rs T F P N) as [r [E [Fr V]]].
  exists r. split; [exact E|]. split; [exact Fr|]. intros y Fy. rewrite V, (mean_int order O xs rs P I B).
  assert (G : generic_format radix2 (FLT_exp (-1074) 53) (value y)) by apply FloatAccuracy.fmt_value.
  exact (proj2 (round_N_pt radix2 (FLT_exp (-1074) 53) (fun z => negb (Z.even z)) (mean rs)) (value y) G).
Qed.
Print Assumptions C64_integers.

(** ** C64: in particular, points with the same integer value show that value. *)
Theorem C64_constant :
  forall order xs rs z, (forall n, plan_for n (order n)) -> few xs -> tame 1000 xs ->
  present xs rs -> rs <> [] -> Forall (fun r => r = IZR z) rs -> (Z.abs z <= 2 ^ 33)%Z ->
  exists r, nanmean order xs = Ok r /\ finite r /\ value r = IZR z.
Proof.
  intros order xs rs z O F T P N C Z0.
  assert (M : mean rs = IZR z).
  { pose proof (mean_between rs (IZR z) (IZR z) N) as M. apply Rle_antisym; apply M;
      (eapply Forall_impl; [|exact C]; cbv beta; intros a ->; lra). }
  assert (B : total_of (map Rabs rs) <= INR (length rs) * bpow radix2 33).
  { clear - C Z0. unfold total_of. induction C as [|a l -> C IH]; [simpl; lra|]. simpl length. rewrite S_INR. simpl map. simpl fold_right.
    assert (Rabs (IZR z) <= bpow radix2 33) by (rewrite <- abs_IZR; apply (IZR_le _ (2 ^ 33)); exact Z0). lra. }
  assert (L : INR (length rs) <= bpow radix2 20).
  { pose proof (present_length xs rs P). unfold few in F. rewrite INR_IZR_INZ. apply (IZR_le _ (2 ^ 20)). lia. }
  destruct (C64_integers order xs rs O F T P N) as [r [R1 [R2 R3]]].
  - eapply Forall_impl; [|exact C]. cbv beta. intros a ->. exists z. reflexivity.
  - eapply Rle_trans; [exact B|]. change (IZR (2 ^ 53)) with (bpow radix2 (20 + 33)). rewrite bpow_plus.
    apply Rmult_le_compat_r; [apply bpow_ge_0|exact L].
  - exists r. split; [exact R1|]. split; [exact R2|]. destruct (b_ofz_val z) as [Fz Vz]; [lia|].
    specialize (R3 _ Fz). rewrite Vz, M in R3. rewrite (Rminus_diag_eq (IZR z)), Rabs_R0 in R3 by reflexivity.
    pose proof (Rabs_pos (value r - IZR z)). assert (X : Rabs (value r - IZR z) = 0) by lra.
    destruct (Req_dec (value r) (IZR z)) as [Q|Q]; [exact Q|]. exfalso. apply (Rabs_no_R0 (value r - IZR z)); [lra|exact X].
Qed.
Print Assumptions C64_constant.

(** ** C64: plotly figures with the default aggregation. The colour of a node is
    missing when the values of all its points are, and their average otherwise. *)
Definition averages (col : list b64) (ids : list nat) (color : b64) : Prop :=
  exists xs, Forall2 (fun j x => nth_error col j = Some x) ids xs /\
    (few xs -> tame 1000 xs ->
      (color = B754_nan <-> Forall (fun x => x = B754_nan) xs) /\
      forall rs B, present xs rs -> rs <> [] -> Forall (fun r => Rabs r <= B) rs ->
        finite color /\ Rabs (value color - mean rs) <= mean_error (length xs) B).

Lemma node_color_averages order col ids color : (forall n, plan_for n (order n)) ->
  node_color (A := BA) col (nanmean order) ids color -> averages col ids color.
Proof.
  intros O [xs [H E]]. exists xs. split; [exact H|]. intros F T. split.
  - rewrite <- (C64_nan order xs O F T), E. split; intro Q; [f_equal; exact Q|injection Q; auto].
  - intros rs B P N HB. destruct (C64_mean order xs rs B O F T P N HB) as [r [R1 R2]].
    assert (r = color) by (unfold nanmean in *; congruence). subst. exact R2.
Qed.

Theorem C64_plotly :
  forall order, (forall n, plan_for n (order n)) ->
  forall CS get_colorscale plotly_cmap str_num (m : mapper_plot BA), well_formed (mp_graph m) ->
  forall c ns ti cm w h f,
  plot_plotly BA CS get_colorscale plotly_cmap str_num m c ns ti (nanmean order) cm w h = Ok f ->
  exists cc et nt, to_colors c = Ok cc /\ f_traces f = [et; nt] /\
    forall i n s ids, nth_error (g_nodes (mp_graph m)) i = Some (n, (s, ids)) ->
      exists col color, is_column cc 0 col /\ averages col ids color /\
        shown nt "marker.color" i = Some color /\ tooltip nt i = Some (color, n, s).
Proof.
  intros order O CS gc pc sn m W c ns ti cm w h f H.
  destruct (PropPlot.C41_plotly_markers BA CS gc pc sn m W c ns ti (nanmean order) cm w h f H) as [cc [et [nt [H1 [H2 [_ [_ H3]]]]]]].
  exists cc, et, nt. split; [exact H1|]. split; [exact H2|]. intros i n s ids E.
  destruct (H3 i n s ids E) as [p [col [color [M [_ [K1 [K2 [_ [_ [_ [_ [_ [K3 [_ K4]]]]]]]]]]]]]].
  exists col, color. split; [exact K1|]. split; [exact (node_color_averages order col ids color O K2)|]. split; assumption.
Qed.
Print Assumptions C64_plotly.

(** ** C64: the colour scale. When every node has a point with a value, the limits of
    the scale are the smallest and the largest of the averages. *)
Lemma finite_order : strict_total_on (lt_b BA) finite.
Proof.
  split.
  - intros a b Fa Fb. change (lt_b BA a b) with (b_lt a b). change (lt_b BA b a) with (b_lt b a).
    rewrite (b_lt_val a b Fa Fb), (b_lt_val b a Fb Fa). unfold Rltb.
    destruct (Rlt_dec (rv a) (rv b)); [|discriminate]. intros _. destruct (Rlt_dec (rv b) (rv a)); [lra|reflexivity].
  - intros a b c Fa Fb Fc. change (lt_b BA a b) with (b_lt a b). change (lt_b BA b c) with (b_lt b c). change (lt_b BA a c) with (b_lt a c).
    rewrite (b_lt_val a b Fa Fb), (b_lt_val b c Fb Fc), (b_lt_val a c Fa Fc). unfold Rltb.
    destruct (Rlt_dec (rv a) (rv b)); [discriminate|]. destruct (Rlt_dec (rv b) (rv c)); [discriminate|].
    destruct (Rlt_dec (rv a) (rv c)); [lra|reflexivity].
Qed.

(** Every node has at most [2 ^ 20] points, one of them with a value. *)
Definition has_values (g : graph) (col : list b64) : Prop :=
  forall z s ids, In (z, (s, ids)) (g_nodes g) -> (Z.of_nat (length ids) <= 2 ^ 20)%Z /\
    exists j x, In j ids /\ nth_error col j = Some x /\ x <> B754_nan.

Lemma node_finite order g col z s ids color : (forall n, plan_for n (order n)) -> tame 1000 col -> has_values g col ->
  In (z, (s, ids)) (g_nodes g) -> node_color (A := BA) col (nanmean order) ids color -> finite color.
Proof.
  intros O T V I [xs [H E]]. change (num BA) with b64 in *. destruct (V z s ids I) as [L [j [x [J1 [J2 J3]]]]].
  assert (Lx : length ids = length xs) by (clear - H; induction H; simpl; auto).
  assert (F : few xs) by (unfold few; rewrite <- Lx; exact L).
  assert (Tx : tame 1000 xs).
  { clear - H T. unfold tame in *. rewrite Forall_forall in *. induction H as [|a b l l' Q H IH]; [intros y []|].
    intros y [<-|Y]; [|exact (IH y Y)]. apply T. exact (nth_error_In _ _ Q). }
  destruct (present_total xs) as [rs P].
  assert (N : rs <> []).
  { intro Q. apply (present_nil_iff xs rs P) in Q. rewrite Forall_forall in Q. apply J3.
    apply Q. clear - H J1 J2. induction H as [|a b l l' K H IH]; [destruct J1|].
    destruct J1 as [<-|J1]; [left|right; exact (IH J1)]. pose proof (eq_trans (eq_sym K) J2) as Q. injection Q as ->. reflexivity. }
  destruct (nanmean_val order O xs rs Tx F P N) as [r [R1 [R2 _]]].
  assert (r = color) by (unfold nanmean in *; congruence). subst. exact R2.
Qed.

Theorem C64_plotly_range :
  forall order, (forall n, plan_for n (order n)) ->
  forall CS get_colorscale plotly_cmap str_num (m : mapper_plot BA),
  well_formed (mp_graph m) -> g_nodes (mp_graph m) <> [] ->
  forall c cc col, to_colors c = Ok cc -> is_column (A := BA) cc 0 col -> tame 1000 col -> has_values (mp_graph m) col ->
  forall ns ti cm w h f,
  plot_plotly BA CS get_colorscale plotly_cmap str_num m c ns ti (nanmean order) cm w h = Ok f ->
  exists et nt (lo hi : b64), f_traces f = [et; nt] /\ attr nt "marker.cmin" = ANum (A := BA) lo /\ attr nt "marker.cmax" = ANum (A := BA) hi /\
    finite lo /\ finite hi /\
    (exists i, shown nt "marker.color" i = Some lo) /\ (exists i, shown nt "marker.color" i = Some hi) /\
    forall i (v : b64), shown nt "marker.color" i = Some v -> value lo <= value v <= value hi.
Proof.
  intros order O CS gc pc sn m W Ne c cc col Hc Hcol T V ns ti cm w h f H.
  pose proof H as H0. apply plot_plotly_inv in H.
  destruct H as [cmaps [cc' [titles [sizes [_ [H2 [_ [_ H]]]]]]]]. rewrite Hc in H2. injection H2 as <-.
  assert (Pf : forall col' z s ids v, column cc 0 = Ok col' -> In (z, (s, ids)) (g_nodes (mp_graph m)) ->
    node_color (A := BA) col' (nanmean order) ids v -> finite v).
  { intros col' z s ids v E I K. assert (col' = col).
    { apply (proj2 (column_spec BA cc 0 col)) in Hcol. congruence. }
    subst. exact (node_finite order (mp_graph m) col z s ids v O T V I K). }
  destruct (color_range_shown BA CS gc pc sn m W _ _ _ _ _ _ _ _ finite H finite_order Pf Ne)
    as [et [nt [lo [hi [A1 [A2 [A3 [A4 [A5 A6]]]]]]]]].
  destruct (PropPlot.C41_plotly_markers BA CS gc pc sn m W c ns ti (nanmean order) cm w h f H0) as [cc' [et' [nt' [H1 [H2 [HL [_ H3]]]]]]].
  assert (cc' = cc) by congruence. subst cc'. rewrite A1 in H2. injection H2 as <- <-.
  assert (Fin : forall i v, shown nt "marker.color" i = Some v -> finite v).
  { intros i v E. assert (Li : (i < length (g_nodes (mp_graph m)))%nat).
    { pose proof (HL "marker.color"%string) as L. unfold array_length, shown in *.
      destruct (attr nt "marker.color"); try discriminate E. 
      assert (Some (length l) = Some (length (g_nodes (mp_graph m)))) as Q by (apply L; simpl; tauto). injection Q as Q. rewrite <- Q.
      exact (nth_error_lt _ _ _ E). }
    destruct (nth_error (g_nodes (mp_graph m)) i) as [[z [s ids]]|] eqn:G; [|apply nth_error_None in G; lia].
    destruct (H3 i z s ids G) as [p [col' [color [M [_ [K1 [K2 [_ [_ [_ [_ [_ [K3 _]]]]]]]]]]]]].
    assert (color = v) by congruence. subst. apply (Pf col' z s ids v); [apply column_spec, K1|exact (nth_error_In _ _ G)|exact K2]. }
  exists et, nt, lo, hi. split; [exact A1|]. split; [exact A2|]. split; [exact A3|].
  destruct A4 as [i4 A4]. destruct A5 as [i5 A5]. pose proof (Fin _ _ A4) as F4. pose proof (Fin _ _ A5) as F5.
  split; [exact F4|]. split; [exact F5|]. split; [exists i4; exact A4|]. split; [exists i5; exact A5|].
  intros i v E. pose proof (Fin i v E) as Fv. destruct (A6 i v E) as [B1 B2].
  change (lt_b BA v lo) with (b_lt v lo) in B1. change (lt_b BA hi v) with (b_lt hi v) in B2.
  rewrite (b_lt_val v lo Fv F4) in B1. rewrite (b_lt_val hi v F5 Fv) in B2. unfold Rltb, value in *.
  destruct (Rlt_dec (rv v) (rv lo)); [discriminate|]. destruct (Rlt_dec (rv hi) (rv v)); [discriminate|].
  unfold rv in *. lra.
Qed.
Print Assumptions C64_plotly_range.

(** ** C64: matplotlib figures with the default aggregation. *)
Theorem C64_matplotlib :
  forall order, (forall n, plan_for n (order n)) ->
  forall root (m : mapper_plot BA), well_formed (mp_graph m) -> symmetric_graph (mp_graph m) ->
  forall title (colors : list b64) node_size cmap p,
  plot_matplotlib BA root m title colors node_size (nanmean order) cmap = Ok p ->
  length (mpl_c p) = length (g_nodes (mp_graph m)) /\
  forall i z s ids, nth_error (g_nodes (mp_graph m)) i = Some (z, (s, ids)) ->
    exists color, nth_error (mpl_c p) i = Some color /\ averages colors ids color.
Proof.
  intros order O root m W Sy title colors ns cmap p H.
  destruct (PropPlot.C41_matplotlib BA root m W Sy title colors ns (nanmean order) cmap p H) as [_ [_ [L [_ [K _]]]]].
  split; [exact L|]. intros i z s ids E. destruct (K i z s ids E) as [pos [x [y [color [M [_ [_ [_ [K1 [_ [_ [_ [_ [K2 _]]]]]]]]]]]]]].
  exists color. split; [exact K2|]. exact (node_color_averages order colors ids color O K1).
Qed.
Print Assumptions C64_matplotlib.

(** ** C64: pyvis with the default aggregation. The limits are the smallest and the largest of the
    averages, nodes without a value left aside; but such a node gets the colour of the largest value. *)
Definition at_most_2_20 (g : graph) : Prop := forall z s ids, In (z, (s, ids)) (g_nodes g) -> (Z.of_nat (length ids) <= 2 ^ 20)%Z.
Theorem C64_pyvis :
  forall order, (forall n, plan_for n (order n)) ->
  forall root round_int CS get_colorscale (m : mapper_plot BA), well_formed (mp_graph m) -> at_most_2_20 (mp_graph m) ->
  forall (colors : list b64) node_size w h cmap net, tame 1000 colors ->
  (exists z s ids j x, In (z, (s, ids)) (g_nodes (mp_graph m)) /\ In j ids /\ nth_error colors j = Some x /\ x <> B754_nan) ->
  compute_net BA root round_int (B754_infinity false) (B754_infinity true) CS get_colorscale m colors node_size (nanmean order) w h cmap = Ok net ->
  finite (net_cmin net) /\ finite (net_cmax net) /\
  (exists z s ids, In (z, (s, ids)) (g_nodes (mp_graph m)) /\ averages colors ids (net_cmin net)) /\
  (exists z s ids, In (z, (s, ids)) (g_nodes (mp_graph m)) /\ averages colors ids (net_cmax net)) /\
  forall i z s ids, nth_error (g_nodes (mp_graph m)) i = Some (z, (s, ids)) ->
    exists v color, nth_error (net_nodes net) i = Some v /\ pv_title v = (color, z, pv_size v) /\ averages colors ids color /\
      ((finite color /\ value (net_cmin net) <= value color <= value (net_cmax net)) \/
       (color = B754_nan /\ (forall j x, In j ids -> nth_error colors j = Some x -> x = B754_nan) /\
        (value (net_cmin net) < value (net_cmax net) -> value (pv_color v) = 1) /\
        (value (net_cmin net) = value (net_cmax net) -> value (pv_color v) = 1 / 2))).
Proof.
  intros order O root ri CS gc m W Sm colors ns w h cmap net T Ex H.
  destruct (pyvis_shown BA root ri (B754_infinity false) (B754_infinity true) CS gc m W _ _ _ _ _ _ _ H) as [_ [_ [cs [Lc [Bd Q]]]]].
  change (num BA) with b64 in *.
  assert (Av : forall z s ids color, In (z, (s, ids)) (g_nodes (mp_graph m)) -> node_color (A := BA) colors (nanmean order) ids color ->
    (finite color /\ exists j x, In j ids /\ nth_error colors j = Some x /\ x <> B754_nan) \/
    (color = B754_nan /\ forall j x, In j ids -> nth_error colors j = Some x -> x = B754_nan)).
  { intros z s ids color I Nc. destruct (node_color_averages order colors ids color O Nc) as [xs [F2 Ax]].
    assert (Lx : length ids = length xs) by (clear - F2; induction F2; simpl; auto).
    assert (Fx : few xs) by (unfold few; rewrite <- Lx; exact (Sm z s ids I)).
    assert (In2 : forall x, In x xs -> exists j, In j ids /\ nth_error colors j = Some x).
    { clear - F2. induction F2 as [|a b l l' R F IH]; intros x []; [subst; exists a; split; [left; reflexivity|exact R]|].
      destruct (IH x H) as [j [J1 J2]]. exists j. split; [right; exact J1|exact J2]. }
    assert (In1 : forall j x, In j ids -> nth_error colors j = Some x -> In x xs).
    { clear - F2. induction F2 as [|a b l l' R F IH]; intros j x [] E; [subst; left; congruence|right; exact (IH j x H E)]. }
    assert (Tx : tame 1000 xs).
    { unfold tame in *. rewrite Forall_forall in *. intros x Hx. destruct (In2 x Hx) as [j [_ J]]. apply T. exact (nth_error_In _ _ J). }
    destruct (Ax Fx Tx) as [A1 A2]. destruct (present_total xs) as [rs P].
    destruct rs as [|r rs].
    - right. assert (All : Forall (fun x => x = B754_nan) xs) by (apply (present_nil_iff xs [] P); reflexivity).
      split; [apply A1, All|]. intros j x J E. rewrite Forall_forall in All. apply All. exact (In1 j x J E).
    - left. assert (Bd2 : exists B, Forall (fun r => Rabs r <= B) (r :: rs)).
      { clear. induction (r :: rs) as [|a l [B IH]]; [exists 0; constructor|]. exists (Rmax (Rabs a) B). constructor; [apply Rmax_l|].
        eapply Forall_impl; [|exact IH]. intros q Hq. simpl in Hq. eapply Rle_trans; [exact Hq|apply Rmax_r]. }
      destruct Bd2 as [B HB]. split; [apply (A2 _ B P); [discriminate|exact HB]|].
      assert (Sx : exists x, In x xs /\ x <> B754_nan).
      { clear - P. remember (r :: rs) as e. revert r rs Heqe. induction P as [|xs e P IH|x xs e Nx P IH]; intros r0 rs0 Heqe; [discriminate| |].
        - destruct (IH _ _ Heqe) as [x' [I N]]. exists x'. split; [right; exact I|exact N].
        - exists x. split; [left; reflexivity|exact Nx]. }
      destruct Sx as [x [I2 Nx]]. destruct (In2 x I2) as [j [J1 J2]]. exists j, x. auto. }
  assert (Cs : forall c, In c cs -> exists z s ids, In (z, (s, ids)) (g_nodes (mp_graph m)) /\ node_color (A := BA) colors (nanmean order) ids c).
  { intros c I. apply In_nth_error in I. destruct I as [i E]. assert (Li : (i < length (g_nodes (mp_graph m)))%nat) by (rewrite <- Lc; apply nth_error_Some; congruence).
    destruct (nth_error (g_nodes (mp_graph m)) i) as [[z [s ids]]|] eqn:G; [|apply nth_error_None in G; lia].
    destruct (Q i z s ids G) as [v [pos [x [y [color [M [lo [_ [_ [_ [_ [K [K' _]]]]]]]]]]]]].
    assert (color = c) by congruence. subst c. exists z, s, ids. split; [exact (nth_error_In _ _ G)|exact K]. }
  destruct (bounds_nan cs) as [lo [hi [E [F1 [F2 [I1 [I2 V]]]]]]].
  { apply Forall_forall. intros c I. destruct (Cs c I) as [z [s [ids [G K]]]]. destruct (Av z s ids c G K) as [[A _]|[A _]]; [left|right]; exact A. }
  { destruct Ex as [z [s [ids [j [x [G [J [X Nx]]]]]]]]. apply In_nth_error in G. destruct G as [i G].
    destruct (Q i z s ids G) as [v [pos [x' [y [color [M [lo [_ [_ [_ [_ [K [K' _]]]]]]]]]]]]].
    exists color. split; [exact (nth_error_In _ _ K')|]. destruct (Av z s ids color (nth_error_In _ _ G) K) as [[A _]|[_ A]]; [exact A|].
    exfalso. exact (Nx (A j x J X)). }
  assert (E' : (net_cmin net, net_cmax net) = (lo, hi)) by (etransitivity; [exact Bd|exact E]). assert (E0 := E'). injection E' as -> ->.
  split; [exact F1|]. split; [exact F2|].
  split. { destruct (Cs lo I1) as [z [s [ids [G K]]]]. exists z, s, ids. split; [exact G|exact (node_color_averages order colors ids lo O K)]. }
  split. { destruct (Cs hi I2) as [z [s [ids [G K]]]]. exists z, s, ids. split; [exact G|exact (node_color_averages order colors ids hi O K)]. }
  intros i z s ids G. destruct (Q i z s ids G) as [v [pos [x' [y [color [M [lo' [K1 [_ [_ [_ [K [K' [_ [_ [_ [_ [_ [_ [K3 [_ [_ K4]]]]]]]]]]]]]]]]]]]]]].
  exists v, color. split; [exact K1|]. split; [exact K4|]. split; [exact (node_color_averages order colors ids color O K)|].
  destruct (Av z s ids color (nth_error_In _ _ G) K) as [[A _]|[-> A]].
  - left. split; [exact A|]. exact (V color (nth_error_In _ _ K') A).
  - right. split; [reflexivity|]. split; [exact A|]. assert (K5 := eq_trans K3 (eq_trans (f_equal (fun q => pv_color_of BA q B754_nan) E0) (color_of_nan lo hi F1 F2))).
    rewrite K5. clear. split; intro L; destruct (Req_EM_T (value lo) (value hi)); try lra.
    + apply (b_ofz_val 1). simpl. lia.
    + change (b_div (b_ofz 1) (b_ofz 2)) with (half BA). rewrite (proj2 half_val). lra.
Qed.
Print Assumptions C64_pyvis.

(** *** Examples *)
Definition sf_of (r : res b64) : option spec_float := match r with Ok x => Some (B2SF x) | Err _ => None end.
Definition some_values : list b64 := [b_ofz 1; B754_nan; b_ofz 2; b_ofz 6].

Lemma small_int z : (Z.abs z < 2 ^ 53)%Z -> small 1000 (b_ofz z).
Proof.
  intro H. destruct (b_ofz_val z H) as [F V]. split; [exact F|]. rewrite V, <- abs_IZR.
  apply Rle_trans with (bpow radix2 53); [apply (IZR_le _ (2 ^ 53)); lia|apply bpow_le; lia].
Qed.
Example C64_hypotheses :
  (forall n, plan_for n (in_turn n)) /\ few some_values /\ tame 1000 some_values /\
  present some_values [value (b_ofz 1); value (b_ofz 2); value (b_ofz 6)] /\
  [value (b_ofz 1); value (b_ofz 2); value (b_ofz 6)] = [1; 2; 6] /\ mean [1; 2; 6] = 3 /\
  sf_of (nanmean in_turn some_values) = Some (B2SF (b_ofz 3)).
Proof.
  split; [exact in_turn_plan|]. split; [unfold few; simpl; lia|]. split.
  { unfold some_values, tame. repeat (apply Forall_cons; [first [left; reflexivity|right; apply small_int; reflexivity]|]). apply Forall_nil. }
  split.
  { unfold some_values. repeat (constructor; try discriminate). }
  destruct (b_ofz_val 1) as [_ ->]; [reflexivity|]. destruct (b_ofz_val 2) as [_ ->]; [reflexivity|]. destruct (b_ofz_val 6) as [_ ->]; [reflexivity|].
  split; [reflexivity|]. split; [unfold mean, total_of; simpl; lra|]. vm_compute. reflexivity.
Qed.
Example C64_all_missing : sf_of (nanmean in_turn [B754_nan; B754_nan]) = Some S754_nan /\ sf_of (nanmean in_turn []) = Some S754_nan.
Proof. vm_compute. split; reflexivity. Qed.

(** pyvis: of five nodes the third has no value; it is coloured like the fourth, the largest. *)
Definition pyvis_plot : mapper_plot BA :=
  mkplot (A := BA) PropPlot.demo_graph 2 (map (fun n => (n, [b_ofz n; b_ofz 1])) (nodes PropPlot.demo_graph)).
Definition pyvis_values : list b64 := [b_ofz 1; B754_nan; b_ofz 5; b_ofz 3].
Example C64_pyvis_run :
  at_most_2_20 (mp_graph pyvis_plot) /\ tame 1000 pyvis_values /\
  match compute_net BA b_sqrt (fun _ => 0%Z) (B754_infinity false) (B754_infinity true) string PropPlot.demo_scale pyvis_plot pyvis_values
          (b_ofz 1) (nanmean in_turn) 100 100 "Jet" with
  | Ok net => (map (fun v : pv_node BA => (B2SF (pv_color v : b64))) (net_nodes net), B2SF (net_cmin net : b64), B2SF (net_cmax net : b64))
  | Err _ => ([], S754_nan, S754_nan)
  end = (map (fun x : b64 => B2SF x) [b_make 1 (-1); b_zero; b_ofz 1; b_ofz 1; b_make 1 (-1)], B2SF (b_ofz 1), B2SF (b_ofz 5)).
Proof.
  split. { intros z s ids I. cbn in I. repeat (destruct I as [I|I]; [injection I as <- <- <-; simpl; lia|]). destruct I. }
  split. { unfold pyvis_values, tame. repeat (apply Forall_cons; [first [left; reflexivity|right; apply small_int; reflexivity]|]). apply Forall_nil. }
  vm_compute. reflexivity.
Qed.

(** Two nodes; the first has a point without a value. *)
Definition mean_graph : graph := mkgraph [(0, (2, [0; 1])%nat); (1, (2, [1; 2])%nat)]%Z [(0, [1]); (1, [0])]%Z.
Definition mean_plot : mapper_plot BA :=
  mkplot (A := BA) mean_graph 2 [(0%Z, [b_ofz 0; b_ofz 0]); (1%Z, [b_ofz 1; b_ofz 1])].
Definition mean_figure : res (figure BA string) :=
  plot_plotly BA string PropPlot.demo_scale PropPlot.demo_cmap (fun _ => "size"%string) mean_plot
    (CA1 (A := BA) [B754_nan; b_ofz 1; b_ofz 4]) (NSNum (A := BA) (b_ofz 1)) TNone (nanmean in_turn) (CMStr "Jet") None None.
Definition colors_of (r : res (figure BA string)) : list (option spec_float) :=
  match r with
  | Ok f => match f_traces f with
      | [et; nt] => map (fun i => match shown nt "marker.color" i with Some x => Some (B2SF (x : b64)) | None => None end) [0; 1; 2]%nat ++
          map (fun path => match attr nt path with ANum x => Some (B2SF (x : b64)) | _ => None end) ["marker.cmin"; "marker.cmax"]%string
      | _ => [] end
  | Err _ => [] end.
Example C64_plotly_demo : has_values mean_graph [B754_nan; b_ofz 1; b_ofz 4] /\
  colors_of mean_figure = [Some (B2SF (b_ofz 1)); Some (B2SF (b_make 5 (-1))); None; Some (B2SF (b_ofz 1)); Some (B2SF (b_make 5 (-1)))].
Proof.
  split.
  - intros z s ids [I|[I|[]]]; injection I as <- <- <-; (split; [simpl; lia|]); exists 1%nat, (b_ofz 1);
      (split; [simpl; tauto|]); split; try reflexivity; discriminate.
  - vm_compute. reflexivity.
Qed.

(** ** C64: false, points with the same value always show it: the average of three
    times 0.1 is another number. *)
Definition tenth : b64 := b_make 3602879701896397 (-55).
Theorem C64_constant_refuted :
  exists xs : list b64, tame 1000 xs /\ Forall (fun x => x = tenth) xs /\ length xs = 3%nat /\
    exists r, nanmean in_turn xs = Ok r /\ finite r /\ value tenth < value r.
Proof.
  exists [tenth; tenth; tenth].
  assert (S : small 1000 tenth).
  { destruct (b_make_val 3602879701896397 (-55)) as [F V]; [reflexivity|lia|]. split; [exact F|]. unfold tenth. rewrite V.
    rewrite Rabs_mult, (Rabs_right (bpow radix2 (-55))) by (apply Rle_ge, bpow_ge_0). rewrite <- abs_IZR.
    apply Rle_trans with (bpow radix2 53 * bpow radix2 (-55)).
    - apply Rmult_le_compat_r; [apply bpow_ge_0|]. apply (IZR_le _ (2 ^ 53)). vm_compute. discriminate.
    - rewrite <- bpow_plus. apply bpow_le. lia. }
  split; [repeat (apply Forall_cons; [right; exact S|]); apply Forall_nil|]. split; [repeat constructor|]. split; [reflexivity|].
  eexists. split; [reflexivity|]. set (r := b_div _ _).
  assert (F : finite r) by (vm_compute; reflexivity). split; [exact F|].
  assert (L : b_lt tenth r = true) by (vm_compute; reflexivity).
  rewrite (b_lt_val tenth r (proj1 S) F) in L. apply Rltb_true in L. exact L.
Qed.
Print Assumptions C64_constant_refuted.

(** ** C64: false, the order of the points of a node does not matter. *)
Theorem C64_order_refuted :
  exists xs ys : list b64, Permutation xs ys /\ Forall finite xs /\
    sf_of (nanmean in_turn xs) = Some (B2SF b_zero) /\ sf_of (nanmean in_turn ys) = sf_of (nanmean in_turn [b_ofz 1; b_ofz 0; b_ofz 0]) /\
    sf_of (nanmean in_turn ys) <> Some (B2SF b_zero).
Proof.
  exists [b_make 1 60; b_ofz 1; b_make (-1) 60], [b_make 1 60; b_make (-1) 60; b_ofz 1].
  split; [apply perm_skip, perm_swap|]. split; [repeat constructor; vm_compute; reflexivity|].
  split; [vm_compute; reflexivity|]. split; [vm_compute; reflexivity|vm_compute; discriminate].
Qed.
Print Assumptions C64_order_refuted.

(** ** C64: false, the average of finite numbers is finite: the sum overflows. *)
Theorem C64_overflow_refuted :
  exists xs : list b64, Forall finite xs /\ sf_of (nanmean in_turn xs) = Some (S754_infinity false).
Proof.
  exists [b_make 15 1020; b_make 15 1020]. split; [repeat constructor; vm_compute; reflexivity|vm_compute; reflexivity].
Qed.
Print Assumptions C64_overflow_refuted.

(** ** C64: false with infinite values, only points without a value give NaN. *)
Theorem C64_infinite_refuted :
  exists xs : list b64, xs <> [] /\ Forall (fun x => b_nan x = false) xs /\ sf_of (nanmean in_turn xs) = Some S754_nan.
Proof.
  exists [B754_infinity false; B754_infinity true]. split; [discriminate|]. split; [repeat constructor|vm_compute; reflexivity].
Qed.
Print Assumptions C64_infinite_refuted.
