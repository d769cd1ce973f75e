(** Layouts, matplotlib and pyvis plots. *)
From Coq Require Import String Reals Lra Lia.
From Verif Require Import Base BaseFacts Dict DictFacts SpecMetric ModelArith ModelCore SpecCore CoreLabels CoreGraph CoreProp UnionFindProp.
From Verif Require Import ModelDraw ModelPlotly SpecPlot DrawFacts PlotlyFacts.
Open Scope nat_scope.

Lemma list_by_nth {X} (l l' : list X) : length l = length l' -> (forall i x, nth_error l i = Some x -> nth_error l' i = Some x) -> l = l'.
Proof.
  revert l'. induction l as [|a l IH]; intros [|b l'] L H; try discriminate; [reflexivity|].
  pose proof (H 0 a eq_refl) as E. cbn in E. injection E as ->. f_equal. apply IH; [injection L; auto|]. intros i x. exact (H (S i) x).
Qed.
Lemma nth_firstn {X} d (l : list X) i : i < d -> nth_error (firstn d l) i = nth_error l i.
Proof. revert l i. induction d as [|d IH]; intros [|a l] [|i] H; try lia; cbn; try reflexivity. apply IH. lia. Qed.

(** ** Layouts *)
Section Layout.
Variable A : arith.
Variable ig_layout : nat -> graph -> list (list (num A)).
Variable nx_layout : nat -> graph -> list (Z * position A).

Lemma ig_row_ok dim lay i p : ig_row A dim lay i = Ok p <-> exists row, nth_error lay i = Some row /\ dim <= length row /\ p = firstn dim row.
Proof.
  unfold ig_row. assert (G : forall (row : list (num A)) d p, map_res (rd row) (seq 0 d) = Ok p -> d <= length row /\ p = firstn d row).
  { intros row d q H. apply map_res_nth in H. destruct H as [L N]. rewrite seq_length in L.
    assert (R : forall j, j < d -> exists x, nth_error q j = Some x /\ nth_error row j = Some x).
    { intros j J. destruct (N j j) as [x [E R]]; [rewrite (nth_error_nth' _ 0) by (rewrite seq_length; exact J); rewrite seq_nth by exact J; reflexivity|].
      apply rd_ok in R. eauto. }
    assert (Ld : d <= length row).
    { destruct d as [|d]; [lia|]. destruct (R d) as [x [_ E]]; [lia|]. apply nth_error_lt in E. lia. }
    split; [exact Ld|]. apply list_by_nth; [rewrite firstn_length; lia|]. intros j x E. pose proof (nth_error_lt _ _ _ E) as J. rewrite L in J.
    destruct (R j J) as [y [E1 E2]]. rewrite nth_firstn by exact J. congruence. }
  split.
  - intro H. apply bind_ok in H. destruct H as [row [R H]]. apply rd_ok in R. apply G in H. destruct H as [L ->]. eauto.
  - intros [row [R [L ->]]]. apply (proj2 (rd_ok _ _ _)) in R. rewrite R. cbn [bind].
    destruct (map_res_total (rd row) (seq 0 dim)) as [q Hq].
    + intros j J. apply in_seq in J. destruct (nth_error_ex row j) as [x E]; [lia|]. exists x. apply rd_ok. exact E.
    + rewrite Hq. apply G in Hq. destruct Hq as [_ ->]. reflexivity.
Qed.

Lemma ig_loop dim lay l : forall k acc, NoDup l ->
  for_each (combine (seq k (length l)) l) (fun p pos => do r <- ig_row A dim lay (fst p); Ok (dset Z.eqb pos (snd p) r)) acc =
  match map_res (ig_row A dim lay) (seq k (length l)) with
  | Ok rows => Ok (fold_left (fun pos e => dset Z.eqb pos (fst e) (snd e)) (combine l rows) acc)
  | Err e => Err e
  end.
Proof.
  induction l as [|z l IH]; intros k acc N; [reflexivity|]. cbn [length seq combine for_each fst snd map_res].
  destruct (ig_row A dim lay k) as [r|e]; cbn [bind]; [|reflexivity]. inversion N; subst. rewrite IH by assumption.
  destruct (map_res (ig_row A dim lay) (seq (S k) (length l))) as [rows|e]; reflexivity.
Qed.
Lemma dset_fold_get (l : list Z) : forall (rows : list (position A)) acc, NoDup l -> length rows = length l ->
  forall z, dget Z.eqb (fold_left (fun pos e => dset Z.eqb pos (fst e) (snd e)) (combine l rows) acc) z =
    (match find (fun e => Z.eqb z (fst e)) (combine l rows) with Some e => Some (snd e) | None => dget Z.eqb acc z end).
Proof.
  induction l as [|a l IH]; intros [|r rows] acc N L z; try discriminate; [reflexivity|]. inversion N as [|? ? N1 N2]; subst.
  cbn [combine fold_left fst snd find]. rewrite IH; [|exact N2|injection L; auto]. rewrite (dget_dset _ Z_eqb_decides).
  destruct (Z.eqb_spec z a) as [->|]; [|reflexivity].
  destruct (find (fun e => Z.eqb a (fst e)) (combine l rows)) as [[b r']|] eqn:E; [|reflexivity].
  apply find_some in E. destruct E as [I E]. cbn in E. apply Z.eqb_eq in E. subst b. apply in_combine_l in I. contradiction.
Qed.
Lemma dset_fold_nth (l : list Z) (rows : list (position A)) i z r : NoDup l -> length rows = length l ->
  nth_error l i = Some z -> nth_error rows i = Some r ->
  dget Z.eqb (fold_left (fun pos e => dset Z.eqb pos (fst e) (snd e)) (combine l rows) []) z = Some r.
Proof.
  intros N L E1 E2. rewrite dset_fold_get by assumption.
  revert rows i L E1 E2. induction l as [|a l IH]; intros [|b rows] i L E1 E2; try discriminate; [destruct i; discriminate|].
  cbn [combine find fst]. inversion N as [|? ? N1 N2]; subst. destruct i as [|i]; cbn in E1, E2.
  - injection E1 as ->. injection E2 as ->. rewrite Z.eqb_refl. reflexivity.
  - destruct (Z.eqb_spec z a) as [->|]; [apply nth_error_In in E1; contradiction|]. apply (IH N2 rows i); auto.
Qed.

Lemma make_plot_ig g dim m : well_formed g -> dim = 2 \/ dim = 3 -> make_plot A ig_layout nx_layout g dim "igraph" = Ok m ->
  mp_graph m = g /\ mp_dim m = dim /\ placed m /\
  forall i z a, nth_error (g_nodes g) i = Some (z, a) -> exists row, nth_error (ig_layout dim g) i = Some row /\ has_pos m z (firstn dim row) /\ dim <= length row.
Proof.
  intros [W _] D H. unfold make_plot, compute_pos in H. cbn [String.eqb Ascii.eqb Bool.eqb] in H.
  apply bind_ok in H. destruct H as [pos [H E]]. injection E as <-. split; [reflexivity|]. split; [reflexivity|].
  assert (Q : forall i z a, nth_error (g_nodes g) i = Some (z, a) -> exists row, nth_error (ig_layout dim g) i = Some row /\
     has_pos (mkplot g dim pos) z (firstn dim row) /\ dim <= length row).
  { intros i z a Ei. unfold compute_pos_ig in H. assert (En : nth_error (nodes g) i = Some z) by (unfold nodes; rewrite nth_error_map, Ei; reflexivity).
    fold (nodes g) in W.
    destruct (nodes g) as [|z0 zs] eqn:Z; [destruct i; discriminate|]. rewrite <- Z in *. clear Z z0 zs.
    assert (Db : ((dim =? 2) || (dim =? 3))%bool = true) by (destruct D as [-> | ->]; reflexivity). rewrite Db in H.
    rewrite ig_loop in H by exact W. destruct (map_res (ig_row A dim (ig_layout dim g)) (seq 0 (length (nodes g)))) as [rows|] eqn:Er; [|discriminate].
    injection H as <-. apply map_res_nth in Er. destruct Er as [L N]. rewrite seq_length in L.
    pose proof (nth_error_lt _ _ _ En) as Li.
    destruct (N i i) as [p [Ep Hp]]; [rewrite (nth_error_nth' _ 0) by (rewrite seq_length; exact Li); rewrite seq_nth by exact Li; reflexivity|].
    apply ig_row_ok in Hp. destruct Hp as [row [R1 [R2 ->]]]. exists row. split; [exact R1|]. split; [|exact R2].
    unfold has_pos. cbn [mp_pos]. apply (dset_fold_nth _ _ i); assumption. }
  split; [|exact Q]. intros z Hz. cbn [mp_graph] in Hz. apply in_map_iff in Hz. destruct Hz as [[z' a] [E I]]. cbn in E. subst z'.
  apply In_nth_error in I. destruct I as [i I]. destruct (Q i z a I) as [row [_ [Hp L]]]. exists (firstn dim row). split; [exact Hp|].
  rewrite firstn_length. cbn [mp_dim]. lia.
Qed.
Lemma make_plot_ig_total g dim : well_formed g -> dim = 2 \/ dim = 3 ->
  length (g_nodes g) <= length (ig_layout dim g) -> (forall row, In row (ig_layout dim g) -> dim <= length row) ->
  exists m, make_plot A ig_layout nx_layout g dim "igraph" = Ok m.
Proof.
  intros [W _] D L R. unfold make_plot, compute_pos. cbn [String.eqb Ascii.eqb Bool.eqb]. unfold compute_pos_ig. fold (nodes g) in W.
  destruct (nodes g) as [|z0 zs] eqn:Z; [eexists; reflexivity|]. rewrite <- Z in *. 
  assert (Db : ((dim =? 2) || (dim =? 3))%bool = true) by (destruct D as [-> | ->]; reflexivity). rewrite Db.
  rewrite ig_loop by exact W. destruct (map_res_total (ig_row A dim (ig_layout dim g)) (seq 0 (length (nodes g)))) as [rows ->]; [|eexists; reflexivity].
  intros i I. apply in_seq in I. unfold nodes in I. rewrite map_length in I. destruct (nth_error_ex (ig_layout dim g) i) as [row E]; [lia|].
  exists (firstn dim row). apply ig_row_ok. exists row. split; [exact E|]. split; [|reflexivity]. apply R. apply nth_error_In in E. exact E.
Qed.
Lemma make_plot_engine g dim engine m : make_plot A ig_layout nx_layout g dim engine = Ok m -> engine = "igraph"%string \/ engine = "networkx"%string.
Proof.
  unfold make_plot, compute_pos. destruct (String.eqb_spec engine "igraph"); [auto|]. destruct (String.eqb_spec engine "networkx"); [auto|]. discriminate.
Qed.
End Layout.

(** ** matplotlib *)
Section Matplotlib.
Variable A : arith.
Variable root : num A -> num A.
Variable m : mapper_plot A.
Notation g := (mp_graph m).
Hypothesis W : well_formed g.

Lemma nodes_nth i z a : nth_error (g_nodes g) i = Some (z, a) -> nth_error (nodes g) i = Some z.
Proof. intro E. unfold nodes. rewrite nth_error_map, E. reflexivity. Qed.
Lemma colors_list (cols : list (Z * num A)) l : dkeys cols = nodes g -> NoDup (nodes g) -> map_res (dget_res Z.eqb cols) (nodes g) = Ok l -> l = map snd cols.
Proof.
  intros K N H. rewrite <- K in *. clear K. assert (G : map_res (dget_res Z.eqb cols) (dkeys cols) = Ok (map snd cols)).
  { apply map_res_ok. assert (Q : forall c, (forall e, In e c -> In e cols) -> Forall2 (fun x y => dget_res Z.eqb cols x = Ok y) (map fst c) (map snd c)).
    { induction c as [|[z v] c IH]; intro Hc; constructor.
      - cbn. unfold dget_res. rewrite (dget_entry_nodup _ Z_eqb_decides cols z v N); [reflexivity|]. apply Hc. left. reflexivity.
      - apply IH. intros e I. apply Hc. right. exact I. }
    apply (Q cols). auto. }
  congruence.
Qed.

Lemma matplotlib_shown title colors node_size agg cmap p : plot_matplotlib A root m title colors node_size agg cmap = Ok p ->
  length (mpl_x p) = length (g_nodes g) /\ length (mpl_y p) = length (g_nodes g) /\
  length (mpl_c p) = length (g_nodes g) /\ length (mpl_s p) = length (g_nodes g) /\
  (forall i z s ids, nth_error (g_nodes g) i = Some (z, (s, ids)) ->
     exists pos x y color M, has_pos m z pos /\ nth_error pos 0 = Some x /\ nth_error pos 1 = Some y /\
       node_color colors agg ids color /\ largest g M /\ M <> 0 /\
       nth_error (mpl_x p) i = Some x /\ nth_error (mpl_y p) i = Some y /\ nth_error (mpl_c p) i = Some color /\
       nth_error (mpl_s p) i = Some (mul A (mul A node_size (ofz A 200)) (root (div A (ofz A (Z.of_nat s)) (ofz A (Z.of_nat M)))))) /\
  length (mpl_segments p) = length (edges g) /\
  (forall k u v, nth_error (edges g) k = Some (u, v) -> exists a b, has_pos m u a /\ has_pos m v b /\ nth_error (mpl_segments p) k = Some (a, b)) /\
  mpl_cmap p = cmap /\ mpl_label p = title /\
  mpl_vmin p = py_min (lt_b A) (mpl_c p) /\ mpl_vmax p = py_max (lt_b A) (mpl_c p).
Proof.
  unfold plot_matplotlib. intro H. apply bind_ok in H. destruct H as [segs [H1 H]]. apply bind_ok in H. destruct H as [arr [H2 H]].
  apply bind_ok in H. destruct H as [cols [H3 H]]. apply bind_ok in H. destruct H as [mc [H4 H]]. apply bind_ok in H. destruct H as [ms [H5 H]].
  apply bind_ok in H. destruct H as [x [H6 H]]. apply bind_ok in H. destruct H as [y [H7 H]]. injection H as <-.
  apply rd_ok in H6. apply rd_ok in H7. cbn [mpl_x mpl_y mpl_c mpl_s mpl_segments mpl_cmap mpl_label mpl_vmin mpl_vmax].
  destruct (node_axis A m arr 0 x H2 H6) as [Lx Nx]. destruct (node_axis A m arr 1 y H2 H7) as [Ly Ny].
  destruct (agg_nth A m W _ _ _ H3) as [Lc [Kc Nc]].
  pose proof (colors_list cols mc Kc (proj1 W) H4) as ->.
  apply map_res_nth in H5. destruct H5 as [Ls Ns]. apply map_res_nth in H1. destruct H1 as [Lg Ng].
  split; [exact Lx|]. split; [exact Ly|]. split; [rewrite map_length; exact Lc|]. split; [rewrite Ls; unfold nodes; apply map_length|].
  split.
  { intros i z s ids E. destruct (Nx i z s ids E) as [pos [xx [P1 [P2 P3]]]]. destruct (Ny i z s ids E) as [pos' [yy [P4 [P5 P6]]]].
    unfold has_pos in *. rewrite P1 in P4. injection P4 as <-. destruct (Nc i z s ids E) as [c [C1 [C2 _]]].
    destruct (Ns i z (nodes_nth i z _ E)) as [sz [S1 S2]]. unfold mpl_size, dget_res in S2.
    rewrite (attr_size_get g z s ids W (nth_error_In _ _ E)) in S2. cbn [bind] in S2. apply bind_ok in S2. destruct S2 as [q [Q1 Q2]].
    unfold int_div in Q1. destruct (Nat.eqb_spec (max_size g) 0) as [E0|E0]; [discriminate|]. injection Q1 as <-. injection Q2 as <-.
    exists pos, xx, yy, c, (max_size g). repeat (split; [assumption|]). split; [|auto 10].
    apply max_size_largest. intro K. rewrite K in E. destruct i; discriminate. }
  split; [exact Lg|]. split; [|repeat split].
  intros k u v E. destruct (Ng k (u, v) E) as [sg [S1 S2]]. cbn [fst snd] in S2. unfold dget_res in S2. unfold has_pos.
  destruct (dget Z.eqb (mp_pos m) u) as [a|]; [|discriminate]. destruct (dget Z.eqb (mp_pos m) v) as [b|]; [|discriminate].
  cbn [bind] in S2. injection S2 as <-. eauto.
Qed.
End Matplotlib.
