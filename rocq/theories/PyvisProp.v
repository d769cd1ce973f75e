(** pyvis networks. *)
From Coq Require Import String Reals Lra Lia.
From Verif Require Import Base BaseFacts Dict DictFacts SpecMetric ModelArith ModelCore SpecCore CoreLabels CoreGraph CoreProp UnionFindProp.
From Verif Require Import ModelDraw ModelPlotly SpecPlot DrawFacts PlotlyFacts DrawProp.
Open Scope nat_scope.

Lemma size_bounds_ok l lo hi : size_bounds l = (Some lo, Some hi) ->
  In lo l /\ In hi l /\ forall s, In s l -> lo <= s <= hi.
Proof.
  unfold size_bounds.
  assert (G : forall l lo0 hi0 lo hi, fold_left size_step l (Some lo0, Some hi0) = (Some lo, Some hi) ->
    In lo (lo0 :: l) /\ In hi (hi0 :: l) /\ lo <= lo0 /\ hi0 <= hi /\ forall s, In s l -> lo <= s <= hi).
  { clear. induction l as [|a l IH]; intros lo0 hi0 lo hi H; cbn [fold_left] in H.
    - injection H as -> ->. split; [left; reflexivity|]. split; [left; reflexivity|]. repeat split; try lia; destruct H.
    - unfold size_step in H at 2. destruct (Nat.ltb_spec a lo0) as [E1|E1], (Nat.ltb_spec hi0 a) as [E2|E2]; apply IH in H; destruct H as [I1 [I2 [I3 [I4 I5]]]];
      (split; [simpl in *; tauto|]); (split; [simpl in *; tauto|]); (split; [lia|]); (split; [lia|]); intros s [<-|I]; try lia; auto. }
  intro H. destruct l as [|a l]; [discriminate|]. cbn [fold_left size_step] in H. apply G in H. destruct H as [I1 [I2 [I3 [I4 I5]]]].
  split; [exact I1|]. split; [exact I2|]. intros s [<-|I]; auto.
Qed.
Lemma size_bounds_some l : l <> [] -> exists lo hi, size_bounds l = (Some lo, Some hi).
Proof.
  intro N. destruct l as [|a l]; [contradiction|]. unfold size_bounds. cbn [fold_left size_step]. clear N. generalize a at 1 as lo0. generalize a as hi0.
  induction l as [|b l IH]; intros hi0 lo0; cbn [fold_left]; [eauto|]. unfold size_step at 2.
  destruct (b <? lo0), (hi0 <? b); apply IH.
Qed.

Section Pyvis.
Variable A : arith.
Variable root : num A -> num A.
Variable round_int : num A -> Z.
Variables pinf ninf : num A.
Variable CS : Type.
Variable get_colorscale : string -> res CS.
Variable m : mapper_plot A.
Notation g := (mp_graph m).
Hypothesis W : well_formed g.
Notation compute_net := (compute_net A root round_int pinf ninf CS get_colorscale m).

Lemma clamp_range c : clamp01 A c = ofz A 0 \/ (lt_b A (ofz A 0) (clamp01 A c) = true /\ (clamp01 A c = ofz A 1 \/ lt_b A (clamp01 A c) (ofz A 1) = true)).
Proof.
  unfold clamp01. destruct (lt_b A c (ofz A 1)) eqn:E1.
  - destruct (lt_b A (ofz A 0) c) eqn:E2; auto.
  - destruct (lt_b A (ofz A 0) (ofz A 1)) eqn:E2; auto.
Qed.

Lemma pyvis_shown colors node_size agg w h cmap net : compute_net colors node_size agg w h cmap = Ok net ->
  net_edges net = edges g /\ length (net_nodes net) = length (g_nodes g) /\
  exists cs, length cs = length (g_nodes g) /\ (net_cmin net, net_cmax net) = color_bounds A pinf ninf cs /\
  forall i z s ids, nth_error (g_nodes g) i = Some (z, (s, ids)) ->
    exists v pos x y color M lo, nth_error (net_nodes net) i = Some v /\ has_pos m z pos /\ nth_error pos 0 = Some x /\ nth_error pos 1 = Some y /\
      node_color colors agg ids color /\ nth_error cs i = Some color /\
      largest g M /\ (exists z' i', node_attr g z' lo i') /\ (forall z' n' i', node_attr g z' n' i' -> lo <= n') /\
      pv_id v = z /\ pv_x v = mul A x (ofz A w) /\ pv_y v = mul A (sub A (ofz A 0) y) (ofz A h) /\
      pv_color v = pv_color_of A (net_cmin net, net_cmax net) color /\
      (lo = M -> pv_size v = round_int (ofz A 25)) /\
      (lo <> M -> pv_size v = round_int (mul A (mul A node_size (ofz A 25)) (root (div A (ofz A (Z.of_nat s)) (ofz A (Z.of_nat M)))))) /\
      pv_title v = (color, z, pv_size v).
Proof.
  unfold ModelDraw.compute_net. cbv zeta. intro H. apply bind_ok in H. destruct H as [sc [_ H]]. apply bind_ok in H. destruct H as [cols [H1 H]].
  apply bind_ok in H. destruct H as [cs [H2 H]]. apply bind_ok in H. destruct H as [ns [H3 H]]. injection H as <-.
  cbn [net_edges net_nodes net_cmin net_cmax].
  destruct (agg_nth A m W _ _ _ H1) as [Lc [Kc Nc]]. pose proof (colors_list A m cols cs Kc (proj1 W) H2) as ->.
  apply map_res_nth in H3. destruct H3 as [Ln Nn]. unfold nodes in Ln. rewrite map_length in Ln.
  split; [reflexivity|]. split; [exact Ln|]. exists (map snd cols). split; [rewrite map_length; exact Lc|].
  split; [symmetry; apply surjective_pairing|].
  intros i z s ids E. destruct (Nn i z (nodes_nth A m i z _ E)) as [v [V1 V2]].
  unfold pv_node_of in V2. unfold dget_res at 1 in V2. rewrite (attr_size_get g z s ids W (nth_error_In _ _ E)) in V2. cbn [bind] in V2.
  apply bind_ok in V2. destruct V2 as [sz [Z1 V2]]. apply bind_ok in V2. destruct V2 as [c [Z2 V2]]. apply bind_ok in V2. destruct V2 as [pos [Z3 V2]].
  apply bind_ok in V2. destruct V2 as [x [Z4 V2]]. apply bind_ok in V2. destruct V2 as [y [Z5 V2]]. injection V2 as <-.
  apply rd_ok in Z4. apply rd_ok in Z5. destruct (Nc i z s ids E) as [color [C1 [C2 C3]]]. unfold dget_res in Z2. rewrite C3 in Z2. injection Z2 as <-.
  assert (Hp : has_pos m z pos).
  { unfold dget_res in Z3. unfold has_pos. destruct (dget Z.eqb (mp_pos m) z); [injection Z3 as <-; reflexivity|discriminate]. }
  assert (Ne : map snd (attr_size g) <> []).
  { unfold attr_size. intro K. destruct (g_nodes g); [destruct i; discriminate|discriminate]. }
  destruct (size_bounds_some _ Ne) as [lo [hi Eb]]. pose proof (size_bounds_ok _ _ _ Eb) as [I1 [I2 I3]].
  assert (In_size : forall q, In q (map snd (attr_size g)) <-> exists z' i', node_attr g z' q i').
  { intro q. unfold attr_size. rewrite map_map. cbn. rewrite in_map_iff. split.
    - intros [[z' [q' i']] [Eq I]]. cbn in Eq. subst q'. exists z', i'. exact I.
    - intros [z' [i' I]]. exists (z', (q, i')). auto. }
  eexists _, pos, x, y, color, hi, lo. split; [exact V1|]. repeat (split; [assumption|]).
  split. { split; [apply In_size; exact I2|]. intros z' n' i' Ha. apply I3. apply In_size. eauto. }
  split; [apply In_size; exact I1|]. split. { intros z' n' i' Ha. apply I3. apply In_size. eauto. }
  cbn [pv_id pv_x pv_y pv_color pv_size pv_title]. repeat (split; [reflexivity|]).
  unfold pv_size_of in Z1. rewrite Eb in Z1. destruct (Nat.eqb_spec hi lo) as [Ed|Ed].
  - injection Z1 as <-. split; [reflexivity|]. split; [intro K; exfalso; apply K; auto|]. reflexivity.
  - unfold int_div in Z1. destruct (Nat.eqb_spec hi 0) as [E0|]; [discriminate|]. cbn [bind] in Z1. injection Z1 as <-.
    split; [intro K; exfalso; apply Ed; auto|]. split; reflexivity.
Qed.
End Pyvis.

(** ** Bounds of the colours, without rounding *)
Open Scope R_scope.
Lemma Rltb_spec a b : reflect (a < b) (Rltb a b).
Proof. unfold Rltb. destruct (Rlt_dec a b); constructor; assumption. Qed.
Lemma color_bounds_ok (l : list R) : l <> [] ->
  exists lo hi, color_bounds XA XPos XNeg (map XFin l) = (XFin lo, XFin hi) /\ In lo l /\ In hi l /\ forall c, In c l -> lo <= c <= hi.
Proof.
  assert (G : forall l a b, exists lo hi, fold_left (color_step XA) (map XFin l) (XFin a, XFin b) = (XFin lo, XFin hi) /\
    In lo (a :: l) /\ In hi (b :: l) /\ lo <= a /\ b <= hi /\ forall c, In c l -> lo <= c <= hi).
  { clear. induction l as [|c l IH]; intros a b; cbn [map fold_left].
    - exists a, b. split; [reflexivity|]. split; [left; reflexivity|]. split; [left; reflexivity|]. repeat split; try lra; destruct H.
    - unfold color_step at 2. cbn [XA lt_b xlt fst snd]. destruct (Rltb_spec c a) as [H1|H1], (Rltb_spec b c) as [H2|H2];
      match goal with |- context[fold_left _ _ (XFin ?u, XFin ?v)] => destruct (IH u v) as [lo [hi [E [I1 [I2 [I3 [I4 I5]]]]]]] end;
      exists lo, hi; (split; [exact E|]); (split; [simpl in *; tauto|]); (split; [simpl in *; tauto|]); (split; [lra|]); (split; [lra|]);
      intros d [<-|I]; try lra; auto. }
  intro N. destruct l as [|c l]; [contradiction|]. unfold color_bounds. cbn [map fold_left]. unfold color_step at 2. cbn [XA lt_b xlt fst snd].
  destruct (G l c c) as [lo [hi [E [I1 [I2 [I3 [I4 I5]]]]]]]. exists lo, hi. split; [exact E|]. split; [exact I1|]. split; [exact I2|].
  intros d [<-|I]; [lra|auto].
Qed.
Lemma color_point lo hi c : lo <= c <= hi ->
  exists p, pv_color_of XA (XFin lo, XFin hi) (XFin c) = XFin p /\ 0 <= p <= 1 /\ (lo < hi -> p = (c - lo) / (hi - lo)) /\ (lo = hi -> p = 1 / 2).
Proof.
  intros H. unfold pv_color_of, eq_b. cbn [fst snd XA le_b xle div sub xsub xadd xopp xdiv ofz].
  unfold Rleb. destruct (Rle_dec hi lo) as [H1|H1], (Rle_dec lo hi) as [H2|H2]; try lra; cbn [andb].
  - destruct (Req_EM_T 2 0); [lra|]. unfold clamp01. cbn [XA lt_b xlt ofz].
    destruct (Rltb_spec (1 / 2) 1); [|lra]. destruct (Rltb_spec 0 (1 / 2)); [|lra]. exists (1 / 2). repeat split; lra.
  - destruct (Req_EM_T (hi + - lo) 0); [lra|]. unfold clamp01. cbn [XA lt_b xlt ofz].
    assert (P : 0 <= (c + - lo) / (hi + - lo) <= 1).
    { split; [apply Rmult_le_pos; [lra|]; left; apply Rinv_0_lt_compat; lra|].
      apply (Rmult_le_reg_r (hi + - lo)); [lra|]. unfold Rdiv. rewrite Rmult_assoc, Rinv_l by lra. lra. }
    destruct (Rltb_spec ((c + - lo) / (hi + - lo)) 1) as [H3|H3].
    + destruct (Rltb_spec 0 ((c + - lo) / (hi + - lo))) as [H4|H4].
      * exists ((c + - lo) / (hi + - lo)). split; [reflexivity|]. split; [lra|]. split; [intros _; reflexivity|intro; lra].
      * exists 0. split; [reflexivity|]. split; [lra|]. split; [intros _; change (c - lo) with (c + - lo); change (hi - lo) with (hi + - lo); lra|intro; lra].
    + destruct (Rltb_spec 0 1); [|lra]. exists 1. split; [reflexivity|]. split; [lra|]. split; [intros _; change (c - lo) with (c + - lo); change (hi - lo) with (hi + - lo); lra|intro; lra].
Qed.

(** ** Rounding *)
Lemma round_even_near r : Rabs (IZR (round_even r) - r) <= 1 / 2.
Proof.
  unfold round_even. cbv zeta. destruct (base_Int_part r) as [H1 H2].
  destruct (Rltb_spec (r - IZR (Int_part r)) (1 / 2)) as [H3|H3].
  - apply Rabs_le. lra.
  - destruct (Rltb_spec (1 / 2) (r - IZR (Int_part r))) as [H4|H4].
    + rewrite plus_IZR. apply Rabs_le. lra.
    + destruct (Z.even (Int_part r)); [|rewrite plus_IZR]; apply Rabs_le; lra.
Qed.
Lemma round_even_mono r r' : r <= r' -> (round_even r <= round_even r')%Z.
Proof.
  intro H. destruct (Z_le_gt_dec (round_even r) (round_even r')) as [K|K]; [exact K|exfalso].
  assert (K' : IZR (round_even r') + 1 <= IZR (round_even r)).
  { rewrite <- plus_IZR. apply IZR_le. lia. }
  pose proof (round_even_near r) as N1. pose proof (round_even_near r') as N2.
  assert (E : r = r').
  { pose proof (Rle_abs (IZR (round_even r) - r)). pose proof (Rle_abs (- (IZR (round_even r') - r'))). rewrite Rabs_Ropp in *. lra. }
  subst r'. lra.
Qed.
Lemma round_even_int z : round_even (IZR z) = z.
Proof.
  pose proof (round_even_near (IZR z)) as N. rewrite <- minus_IZR in N. rewrite <- abs_IZR in N.
  assert (L : (Z.abs (round_even (IZR z) - z) < 1)%Z). { apply lt_IZR. lra. } lia.
Qed.
