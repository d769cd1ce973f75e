(** Internal lemmas on the cubical covers. *)
From Verif Require Import Base BaseFacts ModelCore SpecNet CoreLabels CoreProp ModelQuickselect ModelVPTree SpecVPTree VPSearchFacts
  VPProp ModelArith ModelCover SpecCover SpecMetric SpecCubical CoverFacts CoverProp.
From Coq Require Import Reals Lra Sorted.
Open Scope R_scope.

(** *** Vectors as functions *)
Lemma map2_map {I X Y Z : Type} (f : X -> Y -> Z) (g : I -> X) (h : I -> Y) l :
  map2 f (map g l) (map h l) = map (fun j => f (g j) (h j)) l.
Proof. induction l as [|i l IH]; simpl; congruence. Qed.

Lemma vec_coords m (x : list R) : length x = m -> x = map (coord x) (seq 0 m).
Proof.
  intro H. apply nth_ext with (d := 0) (d' := 0).
  - rewrite map_length, seq_length. exact H.
  - intros j Hj. rewrite (nth_indep (map (coord x) (seq 0 m)) 0 (coord x 0)) by (rewrite map_length, seq_length; lia).
    rewrite map_nth, seq_nth by lia. reflexivity.
Qed.

Lemma coord_map {m} (f : nat -> R) j : (j < m)%nat -> coord (map f (seq 0 m)) j = f j.
Proof.
  intro H. unfold coord. rewrite nth_indep with (d' := f 0%nat) by (rewrite map_length, seq_length; lia).
  rewrite map_nth, seq_nth by lia. reflexivity.
Qed.

Lemma map_seq_ext {A} m (f g : nat -> A) : (forall j, (j < m)%nat -> f j = g j) -> map f (seq 0 m) = map g (seq 0 m).
Proof. intro H. apply map_ext_in. intros j Hj. apply in_seq in Hj. apply H. lia. Qed.

Lemma map_seq_inj {A} m (f g : nat -> A) : map f (seq 0 m) = map g (seq 0 m) ->
  forall j, (j < m)%nat -> f j = g j.
Proof.
  intros H j Hj. assert (E : nth_error (map f (seq 0 m)) j = nth_error (map g (seq 0 m)) j) by congruence.
  rewrite !nth_error_map, !nth_error_nth' with (d := 0%nat) in E by (rewrite seq_length; lia).
  simpl in E. rewrite seq_nth in E by lia. injection E as E. exact E.
Qed.

(** *** Arithmetic *)
Lemma abs_diff_R a b : abs_diff RA a b = Rabs (a - b).
Proof.
  unfold abs_diff. simpl. destruct (Rleb b a) eqn:E.
  - apply Rleb_true in E. rewrite Rabs_right; lra.
  - apply Rleb_false in E. rewrite Rabs_left; lra.
Qed.

Lemma min_R a b : min_n RA a b = Rmin a b.
Proof. unfold min_n, Rmin. simpl. unfold Rleb. destruct (Rle_dec a b); reflexivity. Qed.
Lemma max_R a b : max_n RA a b = Rmax a b.
Proof. unfold max_n, Rmax. simpl. unfold Rleb. destruct (Rle_dec a b); reflexivity. Qed.

Lemma order_RA : order_ok Rleb Rltb (abs_diff RA).
Proof. apply R_order_ok_gap. intros a b. rewrite !abs_diff_R. apply Rabs_minus_sym. Qed.

(** *** Chebyshev distance *)
Lemma cheb_map m (f g : nat -> R) :
  chebyshev RA (map f (seq 0 m)) (map g (seq 0 m)) =
  fold_right Rmax 0 (map (fun j => Rabs (f j - g j)) (seq 0 m)).
Proof.
  unfold chebyshev. rewrite map2_map. generalize (seq 0 m). intro l.
  induction l as [|i l IH]; simpl; [reflexivity|]. simpl in IH. rewrite IH, abs_diff_R, max_R. reflexivity.
Qed.

Lemma Rmax_lt_iff a b r : Rmax a b < r <-> a < r /\ b < r.
Proof. unfold Rmax. destruct (Rle_dec a b); lra. Qed.
Lemma Rmax_le_iff a b r : Rmax a b <= r <-> a <= r /\ b <= r.
Proof. unfold Rmax. destruct (Rle_dec a b); lra. Qed.

Lemma foldmax_lt l r : fold_right Rmax 0 l < r <-> 0 < r /\ forall v, In v l -> v < r.
Proof.
  induction l as [|a l IH]; simpl.
  - intuition.
  - rewrite Rmax_lt_iff, IH. split.
    + intros [H1 [H2 H3]]. split; auto. intros v [<-|Hv]; auto.
    + intros [H1 H2]. auto.
Qed.

Lemma foldmax_le l r : fold_right Rmax 0 l <= r <-> 0 <= r /\ forall v, In v l -> v <= r.
Proof.
  induction l as [|a l IH]; simpl.
  - intuition.
  - rewrite Rmax_le_iff, IH. split.
    + intros [H1 [H2 H3]]. split; auto. intros v [<-|Hv]; auto.
    + intros [H1 H2]. auto.
Qed.

Lemma foldmax_ge l v : In v l -> v <= fold_right Rmax 0 l.
Proof. intro H. apply (proj1 (foldmax_le l (fold_right Rmax 0 l))); [lra|exact H]. Qed.
Lemma foldmax_nonneg l : 0 <= fold_right Rmax 0 l.
Proof. exact (proj1 (proj1 (foldmax_le l (fold_right Rmax 0 l)) (Rle_refl _))). Qed.

Lemma in_map_seq {A} m (f : nat -> A) v : In v (map f (seq 0 m)) <-> exists j, (j < m)%nat /\ v = f j.
Proof.
  rewrite in_map_iff. split.
  - intros [j [<- Hj]]. apply in_seq in Hj. exists j. split; [lia|reflexivity].
  - intros [j [Hj ->]]. exists j. split; [reflexivity|]. apply in_seq. lia.
Qed.

Lemma cheb_lt m x y r : length x = m -> length y = m ->
  (chebyshev RA x y < r <-> 0 < r /\ forall j, (j < m)%nat -> Rabs (coord x j - coord y j) < r).
Proof.
  intros Hx Hy. rewrite (vec_coords m x Hx), (vec_coords m y Hy) at 1. rewrite cheb_map, foldmax_lt.
  split; intros [H1 H2]; split; auto.
  - intros j Hj. apply H2. apply in_map_seq. eauto.
  - intros v Hv. apply in_map_seq in Hv as [j [Hj ->]]. auto.
Qed.

Lemma cheb_le m x y r : length x = m -> length y = m ->
  (chebyshev RA x y <= r <-> 0 <= r /\ forall j, (j < m)%nat -> Rabs (coord x j - coord y j) <= r).
Proof.
  intros Hx Hy. rewrite (vec_coords m x Hx), (vec_coords m y Hy) at 1. rewrite cheb_map, foldmax_le.
  split; intros [H1 H2]; split; auto.
  - intros j Hj. apply H2. apply in_map_seq. eauto.
  - intros v Hv. apply in_map_seq in Hv as [j [Hj ->]]. auto.
Qed.

Lemma cheb_nonneg m x y : length x = m -> length y = m -> 0 <= chebyshev RA x y.
Proof. intros Hx Hy. apply (proj1 (cheb_le m x y _ Hx Hy) (Rle_refl _)). Qed.
Lemma cheb_coord m x y j : length x = m -> length y = m -> (j < m)%nat ->
  Rabs (coord x j - coord y j) <= chebyshev RA x y.
Proof. intros Hx Hy. apply (proj1 (cheb_le m x y _ Hx Hy) (Rle_refl _)). Qed.

Lemma cheb_pseudo m : pseudo_metric_on (fun x : list R => length x = m) (chebyshev RA).
Proof.
  split.
  - intros x Hx. apply Rle_antisym; [|eapply cheb_nonneg; eauto].
    apply (cheb_le m); auto. split; [lra|]. intros j Hj. rewrite Rminus_diag_eq by reflexivity. rewrite Rabs_R0. lra.
  - intros x y Hx Hy. apply Rle_antisym; apply (cheb_le m); auto;
      (split; [eapply cheb_nonneg; eauto|]); intros j Hj; rewrite Rabs_minus_sym; eapply cheb_coord; eauto.
  - intros x y z Hx Hy Hz. apply (cheb_le m); auto. split.
    + pose proof (cheb_nonneg m x y Hx Hy). pose proof (cheb_nonneg m y z Hy Hz). lra.
    + intros j Hj. pose proof (cheb_coord m x y j Hx Hy Hj). pose proof (cheb_coord m y z j Hy Hz Hj).
      replace (coord x j - coord z j) with ((coord x j - coord y j) + (coord y j - coord z j)) by ring.
      pose proof (Rabs_triang (coord x j - coord y j) (coord y j - coord z j)). lra.
Qed.

(** *** Bounds *)
Lemma fold_rows_map m (f : R -> R -> R) X : forall x0,
  length x0 = m -> Forall (fun x => length x = m) X ->
  fold_rows RA f x0 X = map (fun j => fold_left (fun a x => f a (coord x j)) X (coord x0 j)) (seq 0 m).
Proof.
  unfold fold_rows. simpl. induction X as [|x X IH]; intros x0 H0 HX; cbn [fold_left].
  - apply vec_coords, H0.
  - apply Forall_cons_iff in HX as [Hx HX']. simpl.
    assert (E : map2 f x0 x = map (fun j => f (coord x0 j) (coord x j)) (seq 0 m)).
    { rewrite (vec_coords m x0 H0) at 1. rewrite (vec_coords m x Hx) at 1. apply map2_map. }
    rewrite IH; auto.
    + apply map_seq_ext. intros j Hj. rewrite E, coord_map by exact Hj. reflexivity.
    + rewrite E, map_length, seq_length. reflexivity.
Qed.

Lemma fold_min j X : forall x0,
  let v := fold_left (fun a x => min_n RA a (coord x j)) X (coord x0 j) in
  (exists x, In x (x0 :: X) /\ coord x j = v) /\ forall x, In x (x0 :: X) -> v <= coord x j.
Proof.
  assert (G : forall X a, let v := fold_left (fun a x => min_n RA a (coord x j)) X a in
             (v = a \/ exists x, In x X /\ coord x j = v) /\ v <= a /\ forall x, In x X -> v <= coord x j).
  { clear X. induction X as [|x X IH]; intro a; cbn [fold_left].
    - cbn zeta. repeat split; auto; [lra|]. simpl. tauto.
    - specialize (IH (min_n RA a (coord x j))). cbn zeta in *. destruct IH as [H1 [H2 H3]].
      rewrite min_R in *.
      assert (Hm := Rmin_l a (coord x j)). assert (Hm2 := Rmin_r a (coord x j)).
      split; [|split].
      + destruct H1 as [H1|[y [Iy Ey]]].
        * unfold Rmin in H1 at 2. destruct (Rle_dec a (coord x j)); [left; exact H1|].
          right. exists x. split; [left; auto|]. auto.
        * right. exists y. split; [right; auto|auto].
      + lra.
      + intros y [<-|Iy]; [lra|auto]. }
  intros x0 v. destruct (G X (coord x0 j)) as [H1 [H2 H3]]. fold v in H1, H2, H3. split.
  - destruct H1 as [H1|[x [I E]]]; [exists x0|exists x]; simpl; auto.
  - intros x [<-|I]; auto.
Qed.

Lemma fold_max j X : forall x0,
  let v := fold_left (fun a x => max_n RA a (coord x j)) X (coord x0 j) in
  (exists x, In x (x0 :: X) /\ coord x j = v) /\ forall x, In x (x0 :: X) -> coord x j <= v.
Proof.
  assert (G : forall X a, let v := fold_left (fun a x => max_n RA a (coord x j)) X a in
             (v = a \/ exists x, In x X /\ coord x j = v) /\ a <= v /\ forall x, In x X -> coord x j <= v).
  { clear X. induction X as [|x X IH]; intro a; cbn [fold_left].
    - cbn zeta. repeat split; auto; [lra|]. simpl. tauto.
    - specialize (IH (max_n RA a (coord x j))). cbn zeta in *. destruct IH as [H1 [H2 H3]].
      rewrite max_R in *.
      assert (Hm := Rmax_l a (coord x j)). assert (Hm2 := Rmax_r a (coord x j)).
      split; [|split].
      + destruct H1 as [H1|[y [Iy Ey]]].
        * unfold Rmax in H1 at 2. destruct (Rle_dec a (coord x j)); [|left; exact H1].
          right. exists x. split; [left; auto|]. auto.
        * right. exists y. split; [right; auto|auto].
      + lra.
      + intros y [<-|Iy]; [lra|auto]. }
  intros x0 v. destruct (G X (coord x0 j)) as [H1 [H2 H3]]. fold v in H1, H2, H3. split.
  - destruct H1 as [H1|[x [I E]]]; [exists x0|exists x]; simpl; auto.
  - intros x [<-|I]; auto.
Qed.

Section Grid.
Variable m : nat.
Variable n : Z.
Variable eps : R.
Variable X : list (list R).
Variables lo hi : nat -> R.
Hypothesis Hn : (1 <= n)%Z.
Hypothesis He : 0 <= eps.
Hypothesis Hrows : Forall (fun x => length x = m) X.
Hypothesis HX : X <> [].
Hypothesis Hb : column_bounds m X lo hi.
Notation gpos := (grid_pos n eps lo hi).

Definition dl (j : nat) : R := if Rle_dec (hi j - lo j) eps then IZR n else hi j - lo j.
Definition grid_bounds : bounds RA := mkbounds RA n (map lo (seq 0 m)) (map dl (seq 0 m)).

Lemma n_pos : 0 < IZR n.
Proof. apply IZR_lt. lia. Qed.

Lemma dl_pos j : 0 < dl j.
Proof. unfold dl. pose proof n_pos. destruct (Rle_dec (hi j - lo j) eps); lra. Qed.

Lemma get_bounds_ok : get_bounds RA eps n X = Ok grid_bounds.
Proof.
  destruct X as [|x0 X']; [congruence|]. unfold get_bounds.
  pose proof Hrows as Hr. apply Forall_cons_iff in Hr as [H0 HX'].
  rewrite (fold_rows_map m (min_n RA)) by auto.
  rewrite (fold_rows_map m (max_n RA)) by auto.
  assert (L : forall j, (j < m)%nat ->
            fold_left (fun a x => min_n RA a (coord x j)) X' (coord x0 j) = lo j /\
            fold_left (fun a x => max_n RA a (coord x j)) X' (coord x0 j) = hi j).
  { intros j Hj. destruct (Hb j Hj) as [[xl [Il El]] [[xh [Ih Eh]] HB]].
    destruct (fold_min j X' x0) as [[y [Iy Ey]] Hy]. destruct (fold_max j X' x0) as [[z [Iz Ez]] Hz].
    pose proof (HB y Iy). pose proof (HB z Iz). pose proof (Hy xl Il). pose proof (Hz xh Ih).
    cbn zeta in *. split; lra. }
  unfold grid_bounds. f_equal. rewrite map2_map, map_map. f_equal.
  - apply map_seq_ext. intros j Hj. apply L, Hj.
  - apply map_seq_ext. intros j Hj. destruct (L j Hj) as [L1 L2]. unfold dl, zero.
    cbn [ModelArith.num sub le_b ofz RA] in L1, L2 |- *. change (ModelArith.num RA) with R in L1, L2 |- *. rewrite L1, L2.
    destruct (Hb j Hj) as [[xl [Il El]] [_ HB]]. pose proof (HB xl Il).
    destruct (Rleb (0 - eps) (hi j - lo j)) eqn:E1; [|apply Rleb_false in E1; lra].
    cbn [andb]. unfold Rleb. destruct (Rle_dec (hi j - lo j) eps); reflexivity.
Qed.

Lemma gamma_pos x : length x = m ->
  gamma_n RA grid_bounds x = map (fun j => gpos j (coord x j)) (seq 0 m).
Proof.
  intro Hx. unfold gamma_n, grid_bounds. cbn [b_n b_min b_delta]. rewrite (vec_coords m x Hx) at 1.
  rewrite map2_map, map2_map. apply map_seq_ext. intros j Hj. simpl.
  unfold grid_pos, dl. pose proof n_pos. destruct (Rle_dec (hi j - lo j) eps); [field; lra|reflexivity].
Qed.

(** [Int_part] is the floor. *)
Lemma floor_bounds r : IZR (Int_part r) <= r < IZR (Int_part r) + 1.
Proof. pose proof (base_Int_part r). lra. Qed.

Lemma floor_unique r c : IZR c <= r < IZR c + 1 -> Int_part r = c.
Proof.
  intro H. pose proof (floor_bounds r) as F.
  assert (c < Int_part r + 1)%Z by (apply lt_IZR; rewrite plus_IZR; lra).
  assert (Int_part r < c + 1)%Z by (apply lt_IZR; rewrite plus_IZR; lra). lia.
Qed.

Definition cell_fun (x : list R) (j : nat) : Z := Z.min (n - 1) (Int_part (gpos j (coord x j))).

Lemma offset_cells x : length x = m -> offset RA grid_bounds x = map (cell_fun x) (seq 0 m).
Proof.
  intro Hx. unfold offset. rewrite gamma_pos, map_map by exact Hx. reflexivity.
Qed.

Lemma cell_number_fun z : cell_number n z (Z.min (n - 1) (Int_part z)).
Proof.
  pose proof (floor_bounds z) as F. destruct (Z.min_spec (n - 1) (Int_part z)) as [[H E]|[H E]]; rewrite E.
  - split; [lia|]. split; [|lia]. apply IZR_lt in H. lra.
  - split; [lia|]. split; [lra|]. intros _. lra.
Qed.

Lemma cell_number_unique z c c' : cell_number n z c -> cell_number n z c' -> c = c'.
Proof.
  intros [A1 [A2 A3]] [B1 [B2 B3]].
  destruct (Z.lt_trichotomy c c') as [L|[L|L]]; auto; exfalso.
  - specialize (A3 ltac:(lia)). assert (c + 1 <= c')%Z by lia. apply IZR_le in H. rewrite plus_IZR in H. lra.
  - specialize (B3 ltac:(lia)). assert (c' + 1 <= c)%Z by lia. apply IZR_le in H. rewrite plus_IZR in H. lra.
Qed.

Lemma offset_in_cell x : length x = m -> in_cell m n gpos x (offset RA grid_bounds x).
Proof.
  intro Hx. rewrite offset_cells by exact Hx. split; [rewrite map_length, seq_length; reflexivity|].
  intros j Hj. rewrite nth_indep with (d' := cell_fun x 0) by (rewrite map_length, seq_length; lia).
  rewrite map_nth, seq_nth by lia. apply cell_number_fun.
Qed.

Lemma in_cell_unique x c c' : in_cell m n gpos x c -> in_cell m n gpos x c' -> c = c'.
Proof.
  intros [L H] [L' H']. apply nth_ext with (d := 0%Z) (d' := 0%Z); [congruence|].
  intros j Hj. eapply cell_number_unique; [apply H|apply H']; lia.
Qed.

Lemma in_cell_offset x c : length x = m -> (in_cell m n gpos x c <-> c = offset RA grid_bounds x).
Proof.
  intro Hx. split.
  - intro H. eapply in_cell_unique; [exact H|apply offset_in_cell, Hx].
  - intros ->. apply offset_in_cell, Hx.
Qed.

Lemma phi_length x : length x = m -> length (phi RA grid_bounds x) = m.
Proof.
  intro Hx. unfold phi, gamma_n_inv, grid_bounds. cbn [b_n b_min b_delta]. fold grid_bounds.
  rewrite offset_cells, map_map, map2_map, map2_map, map_length, seq_length by exact Hx. reflexivity.
Qed.

Lemma gamma_phi x : length x = m ->
  gamma_n RA grid_bounds (phi RA grid_bounds x) = map (fun j => IZR (cell_fun x j) + 1 / 2) (seq 0 m).
Proof.
  intro Hx. unfold phi, gamma_n_inv, gamma_n. rewrite offset_cells by exact Hx.
  unfold grid_bounds. cbn [b_n b_min b_delta]. rewrite map_map, !map2_map.
  apply map_seq_ext. intros j Hj. unfold half. simpl. pose proof n_pos. pose proof (dl_pos j). field. lra.
Qed.

(** The metric of the inner ball cover. *)
Definition grid_metric : list R -> list R -> R := pullback (gamma_n RA grid_bounds) (chebyshev RA).

Lemma gamma_length x : length x = m -> length (gamma_n RA grid_bounds x) = m.
Proof. intro Hx. rewrite gamma_pos by exact Hx. rewrite map_length, seq_length. reflexivity. Qed.

Lemma grid_pseudo : pseudo_metric_on (fun x => length x = m) grid_metric.
Proof.
  destruct (cheb_pseudo m) as [A B C]. unfold grid_metric, pullback.
  split; intros; [apply A|apply B|apply C]; apply gamma_length; auto.
Qed.

Lemma grid_dist q x r : length q = m -> length x = m ->
  (grid_metric (phi RA grid_bounds q) x < r <->
   0 < r /\ in_cube m r gpos (offset RA grid_bounds q) x).
Proof.
  intros Hq Hx. unfold grid_metric, pullback. rewrite (cheb_lt m); [| |apply gamma_length, Hx].
  2:{ rewrite gamma_phi by exact Hq. rewrite map_length, seq_length. reflexivity. }
  rewrite gamma_phi, gamma_pos, offset_cells by auto. unfold in_cube.
  split; intros [H1 H2]; (split; [exact H1|]); intros j Hj; specialize (H2 j Hj);
    rewrite !coord_map in * by exact Hj; rewrite Rabs_minus_sym;
    rewrite nth_indep with (d' := cell_fun q 0) in * by (rewrite map_length, seq_length; lia);
    rewrite map_nth, seq_nth in * by lia; exact H2.
Qed.

(** *** Fit *)
Variable c : cubical RA.
Variable ov : R.
Hypothesis Hcn : cu_n_intervals RA c = n.
Hypothesis Hov : match cu_overlap_frac RA c with
                 | Some o => o = ov
                 | None => get_overlap_frac RA m (1 / 2) = Ok ov
                 end.
Hypothesis Hpos : 0 < ov.
Hypothesis Hne1 : ov <> 1.
Hypothesis Hcap : (1 <= cu_leaf_capacity RA c)%nat.
Hypothesis Hkind : tp_kind (cu_tree RA c) <> OtherKind.
Definition cube_r : R := 1 / (2 - 2 * ov).

Lemma cubical_fit_ok :
  exists search, cubical_fit_state RA eps c X = Ok (grid_bounds, search) /\
    forall q, length q = m -> exists ids,
      cubical_query RA (grid_bounds, search) q = Ok ids /\ NoDup ids /\
      forall i, In i ids <-> exists x, nth_error X i = Some x /\
        0 < cube_r /\ in_cube m cube_r gpos (offset RA grid_bounds q) x.
Proof.
  unfold cubical_fit_state.
  match goal with |- context [bind ?e _] => assert (Eo : e = Ok ov) end.
  { generalize Hov. destruct (cu_overlap_frac RA c); [intros ->; reflexivity|]. intro Hov'.
    destruct X as [|x0 X']; [congruence|]. pose proof Hrows as Hr.
    apply Forall_cons_iff in Hr as [H0 _]. cbn [hd].
    rewrite (H0 : @length (ModelArith.num RA) x0 = m). exact Hov'. }
  rewrite Eo. cbn [bind].
  assert (E1 : le_b RA ov (zero RA) = false) by (apply Rleb_false; unfold zero; simpl; lra).
  rewrite E1, Hcn, get_bounds_ok. cbn [bind].
  change (sub RA (ofz RA 2) (mul RA (ofz RA 2) ov)) with (2 - 2 * ov).
  assert (E2 : eq_b RA (2 - 2 * ov) (zero RA) = false).
  { unfold eq_b, zero. simpl. destruct (Rleb (2 - 2 * ov) 0) eqn:A, (Rleb 0 (2 - 2 * ov)) eqn:B; auto.
    apply Rleb_true in A, B. exfalso. apply Hne1. lra. }
  rewrite E2.
  match goal with |- context [ball_fit _ _ _ _ _ ?bc X] => set (b := bc) end.
  destruct (ball_search_exact grid_metric Rleb Rltb (abs_diff RA) 0 b X order_RA Hcap HX Hkind)
    as [search [E H]].
  match goal with |- context [bind ?e _] =>
    change e with (ball_fit Rleb Rltb (abs_diff RA) 0 grid_metric b X) end.
  exists search. rewrite E. cbn [bind]. split; [reflexivity|].
  intros q Hq. unfold cubical_query. cbn [fst snd].
  destruct (H (phi RA grid_bounds q)) as [ids [E3 [Nd B]]].
  { apply (pseudo_on_searchable_gap (fun x => length x = m)); [exact abs_diff_R|exact grid_pseudo|exact Hrows|].
    apply phi_length, Hq. }
  exists ids. split; [exact E3|]. split; [exact Nd|]. intro i. rewrite B.
  pose proof Hrows as Hrw. rewrite Forall_forall in Hrw.
  split; intros [x [N D]]; exists x; (split; [exact N|]).
  - apply Rltb_true in D. apply (grid_dist q x cube_r); auto. apply Hrw. eapply nth_error_In, N.
  - apply Rltb_true. apply (grid_dist q x cube_r); auto. apply Hrw. eapply nth_error_In, N.
Qed.
End Grid.

(** *** Landmarks *)
Lemma cell_eqb_true a b : cell_eqb a b = true <-> a = b.
Proof. unfold cell_eqb. destruct (list_eq_dec Z.eq_dec a b); split; auto; discriminate. Qed.

Section Landmarks.
Context {A : Type}.
Variable key : A -> list Z.
Definition lms (X : list A) : list (list Z * A) :=
  fold_left (fun lm x => if existsb (fun p => cell_eqb (fst p) (key x)) lm then lm
                         else (key x, x) :: lm) X [].
Definition first_at (X : list A) (k : list Z) (i : nat) : Prop :=
  (exists x, nth_error X i = Some x /\ key x = k) /\
  forall j y, (j < i)%nat -> nth_error X j = Some y -> key y <> k.

Lemma exists_key (lm : list (list Z * A)) k :
  existsb (fun p => cell_eqb (fst p) k) lm = true <-> In k (map fst lm).
Proof.
  rewrite existsb_exists, in_map_iff. split; intros [p [H1 H2]]; exists p.
  - apply cell_eqb_true in H2. auto.
  - split; auto. apply cell_eqb_true; auto.
Qed.

Lemma lms_ok X :
  NoDup (map fst (lms X)) /\
  (forall p, In p (lms X) -> In (snd p) X /\ key (snd p) = fst p) /\
  (forall x, In x X -> In (key x) (map fst (lms X))) /\
  (forall a b p q i i', (a < b)%nat -> nth_error (lms X) a = Some p -> nth_error (lms X) b = Some q ->
     first_at X (fst p) i -> first_at X (fst q) i' -> (i' < i)%nat).
Proof.
  induction X as [|x X IH] using rev_ind.
  - simpl. repeat split; try tauto; try constructor. intros [|a] b p q i i' _ H; discriminate.
  - destruct IH as [H1 [H2 [H3 H4]]]. unfold lms. rewrite fold_left_app. fold (lms X). cbn [fold_left].
    destruct (existsb (fun p => cell_eqb (fst p) (key x)) (lms X)) eqn:E.
    + apply exists_key in E. split; [exact H1|]. split; [|split].
      * intros p Hp. destruct (H2 p Hp). split; auto. apply in_or_app. auto.
      * intros y Hy. apply in_app_or in Hy as [Hy|[<-|[]]]; auto.
      * assert (G : forall k i, In k (map fst (lms X)) -> first_at (X ++ [x]) k i -> first_at X k i).
        { intros k i Ik [[y [Ny Ky]] F]. apply in_map_iff in Ik as [p [Ep Ip]].
          destruct (H2 p Ip) as [J1 J2]. apply In_nth_error in J1 as [i0 N0].
          assert (L0 : (i0 < length X)%nat) by (apply nth_error_Some; congruence).
          assert (i < length X)%nat.
          { destruct (le_lt_dec (length X) i) as [L|L]; [|exact L]. exfalso.
            apply (F i0 (snd p)); [lia| |congruence]. rewrite nth_error_app1; auto. }
          split.
          - exists y. rewrite nth_error_app1 in Ny by lia. auto.
          - intros j z Hj Nz. apply (F j z Hj). rewrite nth_error_app1 by lia. exact Nz. }
        intros a b p q i i' L Na Nb F F'. eapply (H4 a b p q); eauto.
        -- apply G; auto. apply in_map. eapply nth_error_In, Na.
        -- apply G; auto. apply in_map. eapply nth_error_In, Nb.
    + assert (E' : ~ In (key x) (map fst (lms X))) by (intro H; apply exists_key in H; congruence).
      split; [|split; [|split]].
      * simpl. constructor; auto.
      * intros p [<-|Hp]; simpl.
        -- split; auto. apply in_or_app. right. left. reflexivity.
        -- destruct (H2 p Hp). split; auto. apply in_or_app. auto.
      * intros y Hy. apply in_app_or in Hy as [Hy|[<-|[]]]; simpl; auto.
      * assert (G : forall k i, In k (map fst (lms X)) -> first_at (X ++ [x]) k i ->
                     (i < length X)%nat /\ first_at X k i).
        { intros k i Ik [[y [Ny Ky]] F]. apply in_map_iff in Ik as [p [Ep Ip]].
          destruct (H2 p Ip) as [J1 J2]. apply In_nth_error in J1 as [i0 N0].
          assert (L0 : (i0 < length X)%nat) by (apply nth_error_Some; congruence).
          assert (i < length X)%nat.
          { destruct (le_lt_dec (length X) i) as [L|L]; [|exact L]. exfalso.
            apply (F i0 (snd p)); [lia| |congruence]. rewrite nth_error_app1; auto. }
          split; [auto|]. split.
          - exists y. rewrite nth_error_app1 in Ny by lia. auto.
          - intros j z Hj Nz. apply (F j z Hj). rewrite nth_error_app1 by lia. exact Nz. }
        intros [|a] [|b] p q i i' L Na Nb F F'; try lia; simpl in Na, Nb.
        -- injection Na as <-. simpl in F. destruct F as [[y [Ny Ky]] F].
           destruct (G _ i' (in_map fst _ _ (nth_error_In _ _ Nb)) F') as [L' _].
           destruct (le_lt_dec (length X) i) as [Li|Li]; [lia|]. exfalso. apply E'.
           rewrite <- Ky. apply H3. rewrite nth_error_app1 in Ny by lia. eapply nth_error_In, Ny.
        -- eapply (H4 a b p q); eauto; [lia| |].
           ++ apply (G _ i (in_map fst _ _ (nth_error_In _ _ Na)) F).
           ++ apply (G _ i' (in_map fst _ _ (nth_error_In _ _ Nb)) F').
Qed.
End Landmarks.

Lemma landmark_loop_ok (search : list R -> res (list nat)) lm :
  (forall p, In p lm -> exists s, search (snd p) = Ok s /\ s <> []) ->
  stops (landmark_loop RA search lm) = None /\
  Forall2 (fun p s => search (snd p) = Ok s /\ s <> []) lm (yields (landmark_loop RA search lm)).
Proof.
  induction lm as [|[k x] lm IH]; intro H; cbn [landmark_loop].
  - split; constructor.
  - destruct (H (k, x) (or_introl eq_refl)) as [s [E Hs]]. simpl in E. rewrite E.
    destruct IH as [I1 I2]; [intros p Hp; apply H; right; exact Hp|].
    destruct s as [|i s]; [congruence|]. cbn [yields stops]. split; [exact I1|].
    constructor; auto.
Qed.

Lemma landmark_loop_nil (search : list R -> res (list nat)) lm :
  (forall p, In p lm -> search (snd p) = Ok []) -> landmark_loop RA search lm = mkgen [] None.
Proof.
  induction lm as [|[k x] lm IH]; intro H; cbn [landmark_loop]; [reflexivity|].
  assert (E := H (k, x) (or_introl eq_refl)). simpl in E. rewrite E. apply IH. intros p Hp. apply H. right. exact Hp.
Qed.

Lemma net_nil (search : list R -> res (list nat)) fit X :
  fit X = Ok search -> (forall x, In x X -> search x = Ok []) -> proximity_net fit X = mkgen [] None.
Proof.
  intros E H. unfold proximity_net. rewrite E. generalize 0%nat, (@nil nat).
  clear E. induction X as [|x X IH]; intros i cov; cbn [net_loop]; [reflexivity|].
  destruct (existsb (Nat.eqb i) cov).
  - apply IH. intros y Hy. apply H. right. exact Hy.
  - rewrite (H x (or_introl eq_refl)). simpl app. apply IH. intros y Hy. apply H. right. exact Hy.
Qed.

(** *** Default overlap *)
Lemma root_half m : (1 <= m)%nat ->
  let b := Rpower (1 / 2) (1 / INR m) in 1 / 2 <= b < 1 /\ b ^ m = 1 / 2.
Proof.
  intros Hm b. assert (Hp : 0 < INR m) by (apply lt_0_INR; lia).
  assert (E : b ^ m = 1 / 2).
  { unfold b. rewrite <- Rpower_pow by apply exp_pos. rewrite Rpower_mult.
    replace (1 / INR m * INR m) with 1 by (field; lra). apply Rpower_1. lra. }
  assert (B0 : 0 < b) by apply exp_pos.
  assert (L : b < 1).
  { destruct (Rlt_le_dec b 1) as [H|H]; [exact H|]. pose proof (pow_R1_Rle b m H). lra. }
  split; [|exact E]. split; [|exact L].
  destruct m as [|m]; [lia|]. simpl in E.
  assert (b ^ m <= 1).
  { rewrite <- (pow1 m). apply pow_incr. lra. }
  assert (0 <= b ^ m) by (apply pow_le; lra).
  rewrite <- E. apply Rle_trans with (b * 1); [apply Rmult_le_compat_l; lra|lra].
Qed.

Lemma root_unique m a b : (1 <= m)%nat -> 0 < a -> 0 < b -> a ^ m = b ^ m -> a = b.
Proof.
  intros Hm Ha Hb E. destruct (Rtotal_order a b) as [L|[L|L]]; auto; exfalso.
  - assert (a ^ m < b ^ m); [|lra]. destruct m as [|m]; [lia|]. clear E Hm. induction m as [|m IH]; [simpl; lra|].
    change (a * a ^ S m < b * b ^ S m). apply Rmult_le_0_lt_compat; try lra. apply pow_le. lra.
  - assert (b ^ m < a ^ m); [|lra]. destruct m as [|m]; [lia|]. clear E Hm. induction m as [|m IH]; [simpl; lra|].
    change (b * b ^ S m < a * a ^ S m). apply Rmult_le_0_lt_compat; try lra. apply pow_le. lra.
Qed.

Lemma default_overlap_computed m ov : (1 <= m)%nat ->
  (get_overlap_frac RA m (1 / 2) = Ok ov <-> default_overlap m ov).
Proof.
  intro Hm. destruct (root_half m Hm) as [[B1 B2] B3].
  assert (E : get_overlap_frac RA m (1 / 2) = Ok (1 - 1 / (2 - Rpower (1 / 2) (1 / INR m)))).
  { unfold get_overlap_frac. destruct m as [|m']; [lia|].
    change (Ok (1 - 1 / (2 - Rpower (1 - 1 / 2) (1 / IZR (Z.of_nat (S m'))))) =
            Ok (1 - 1 / (2 - Rpower (1 / 2) (1 / INR (S m'))))).
    replace (1 - 1 / 2) with (1 / 2) by lra. rewrite <- INR_IZR_INZ. reflexivity. }
  rewrite E. set (b := Rpower (1 / 2) (1 / INR m)) in *. split.
  - intro H. injection H as <-.
    assert (I1 : 1 / (1 - (1 - 1 / (2 - b))) = 2 - b) by (field; lra).
    split; [|rewrite I1; replace (2 - (2 - b)) with b by ring; exact B3].
    assert (I2 : 1 - 1 / (2 - b) = (1 - b) / (2 - b)) by (field; lra). rewrite I2. split.
    + apply Rdiv_lt_0_compat; lra.
    + apply Rmult_le_reg_r with (2 - b); [lra|]. unfold Rdiv at 1. rewrite Rmult_assoc, Rinv_l by lra. lra.
  - intros [[O1 O2] O3].
    assert (P : 0 < 1 - ov) by lra.
    assert (I : 1 / (1 - ov) <= 3 / 2).
    { apply Rmult_le_reg_r with (1 - ov); [lra|]. unfold Rdiv at 1. rewrite Rmult_assoc, Rinv_l by lra. lra. }
    assert (Eb : b = 2 - 1 / (1 - ov)) by (apply (root_unique m); auto; lra).
    assert (F : 1 - 1 / (2 - b) = ov) by (rewrite Eb; field; lra). rewrite F. reflexivity.
Qed.

Lemma default_overlap_exists m : (1 <= m)%nat -> exists ov, default_overlap m ov.
Proof.
  intro Hm. eexists. apply default_overlap_computed; [exact Hm|].
  unfold get_overlap_frac. destruct m as [|m']; [lia|]. reflexivity.
Qed.
